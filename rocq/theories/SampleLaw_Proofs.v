(* Jensen's inequality, leave-one-out averages and Chebyshev's inequality for means of random samples. *)
From Coq Require Import Reals List Lra Lia Psatz Permutation.
From Verif Require Import PyBase RList XReal LogMeanExp Dual_Model Dual_Spec Dual_Proofs SampleLaw_Spec.
Import ListNotations.
Local Open Scope R_scope.
Local Notation length := List.length.

Lemma seq_ne k : (0 < k)%nat -> seq 0 k <> [].
Proof. destruct k; [lia|discriminate]. Qed.

Section Expectation.
Variable X : Type.
Variable I : (X -> R) -> Prop.
Variable E : (X -> R) -> R.
Hypothesis HE : expectation I E.

Lemma E_eq f g : (forall x, f x = g x) -> I f -> E f = E g.
Proof.
  intros H If. assert (Ig : I g) by (apply (e_ext _ _ HE f); assumption).
  apply Rle_antisym; apply (e_mono _ _ HE); auto; intros x; rewrite H; lra.
Qed.
Lemma E_sum {A} (f : A -> X -> R) l : (forall a, In a l -> I (f a)) ->
  I (fun x => rsum (map (fun a => f a x) l)) /\ E (fun x => rsum (map (fun a => f a x) l)) = rsum (map (fun a => E (f a)) l).
Proof.
  induction l as [|a l IH]; intros H.
  - exact (e_const _ _ HE 0).
  - destruct IH as [I1 E1]; [intros; apply H; right; assumption|]. destruct (e_add _ _ HE (f a) _ (H a (or_introl eq_refl)) I1) as [I2 E2]. split; [exact I2|]. cbn. rewrite <- E1. exact E2.
Qed.
Lemma E_scal c f : I f -> I (fun x => c * f x) /\ E (fun x => c * f x) = c * E f.
Proof. apply (e_scal _ _ HE). Qed.
Lemma E_mean {A} (f : A -> X -> R) l : (forall a, In a l -> I (f a)) ->
  I (fun x => rmean (map (fun a => f a x) l)) /\ E (fun x => rmean (map (fun a => f a x) l)) = rmean (map (fun a => E (f a)) l).
Proof.
  intros H. destruct (E_sum f l H) as [I1 E1]. destruct (E_scal (/ INR (length l)) _ I1) as [I2 E2].
  assert (Q : forall x, / INR (length l) * rsum (map (fun a => f a x) l) = rmean (map (fun a => f a x) l)) by (intros x; unfold rmean; rewrite map_length; unfold Rdiv; ring).
  split; [exact (e_ext _ _ HE _ _ Q I2)|]. rewrite <- (E_eq _ _ Q I2), E2, E1. unfold rmean. rewrite map_length. unfold Rdiv. ring.
Qed.

(* positive variables: sample i of data point j, n of them, N data points *)
Variable Y : X -> nat -> nat -> R.
Variable N n : nat.
Variable mu : nat -> R.
Definition smean (j : nat) (w : X) : R := rmean (map (Y w j) (seq 0 n)).
Definition obj (c eps : R) (w : X) : R := c + rmean (map (fun j => eps * ln (smean j w)) (seq 0 N)).
Definition lim (c eps : R) : R := c + rmean (map (fun j => eps * ln (mu j)) (seq 0 N)).
Hypothesis Ypos : forall w j i, (j < N)%nat -> (i < n)%nat -> 0 < Y w j i.
Hypothesis mupos : forall j, (j < N)%nat -> 0 < mu j.
Hypothesis npos : (0 < n)%nat.
Hypothesis EY : forall j i, (j < N)%nat -> (i < n)%nat -> I (fun w => Y w j i) /\ E (fun w => Y w j i) = mu j.

Lemma smean_pos j w : (j < N)%nat -> 0 < smean j w.
Proof.
  intros Hj. unfold smean, rmean. apply Rdiv_lt_0_compat.
  - apply rsum_pos; [apply map_neq_nil; apply seq_ne; exact npos|]. apply Forall_map, Forall_forall. intros i Hi. apply in_seq in Hi. apply Ypos; lia.
  - rewrite map_length, seq_length. apply lt_0_INR. exact npos.
Qed.
Lemma E_smean j : (j < N)%nat -> I (smean j) /\ E (smean j) = mu j.
Proof.
  intros Hj. destruct (E_mean (fun i w => Y w j i) (seq 0 n)) as [I1 E1]; [intros i Hi; apply in_seq in Hi; apply EY; lia|]. split; [exact I1|].
  refine (eq_trans E1 _). rewrite (map_ext_in _ (fun _ => mu j)); [apply rmean_map_const, seq_ne; exact npos|]. intros i Hi. apply in_seq in Hi. apply EY; lia.
Qed.

Lemma jensen c eps : (0 < N)%nat -> 0 < eps -> I (obj c eps) -> E (obj c eps) <= lim c eps.
Proof.
  intros HN He Io.
  set (T := fun j w => eps * (ln (mu j) - 1) + eps / mu j * smean j w).
  assert (IT : forall j, (j < N)%nat -> I (T j) /\ E (T j) = eps * ln (mu j)).
  { intros j Hj. destruct (E_smean j Hj) as [I1 E1]. destruct (e_const _ _ HE (eps * (ln (mu j) - 1))) as [I2 E2]. destruct (E_scal (eps / mu j) _ I1) as [I3 E3].
    destruct (e_add _ _ HE _ _ I2 I3) as [I4 E4]. split; [exact I4|]. unfold T. rewrite E4, E2, E3, E1. field. specialize (mupos j Hj). lra. }
  destruct (E_mean T (seq 0 N)) as [I5 E5]; [intros j Hj; apply in_seq in Hj; apply IT; lia|].
  destruct (e_const _ _ HE c) as [I6 E6]. destruct (e_add _ _ HE _ _ I6 I5) as [I7 E7].
  apply Rle_trans with (E (fun w => c + rmean (map (fun j => T j w) (seq 0 N)))).
  - apply (e_mono _ _ HE); auto. intros w. unfold obj. apply Rplus_le_compat_l. apply rmean_map_le. intros j Hj. apply in_seq in Hj. assert (Hj' : (j < N)%nat) by lia.
    pose proof (smean_pos j w Hj') as Sp. pose proof (mupos j Hj') as Mp. unfold T.
    pose proof (ln_le_pred (smean j w / mu j) ltac:(apply Rdiv_lt_0_compat; assumption)) as L. unfold Rdiv in L. rewrite ln_mult, ln_Rinv in L by (try apply Rinv_0_lt_compat; assumption).
    replace (eps * (ln (mu j) - 1) + eps / mu j * smean j w) with (eps * (ln (mu j) - 1 + smean j w * / mu j)) by (unfold Rdiv; ring). apply Rmult_le_compat_l; lra.
  - rewrite E7, E6, E5. unfold lim. apply Rplus_le_compat_l. right. f_equal. apply map_ext_in. intros j Hj. apply in_seq in Hj. apply IT; lia.
Qed.

(* uncorrelated samples *)
Variable var : nat -> R.
Hypothesis EC : forall j i k, (j < N)%nat -> (i < n)%nat -> (k < n)%nat ->
  I (fun w => (Y w j i - mu j) * (Y w j k - mu j)) /\ E (fun w => (Y w j i - mu j) * (Y w j k - mu j)) = if Nat.eq_dec i k then var j else 0.

Lemma rsum_prod {A} (f : A -> R) l : rsum (map f l) * rsum (map f l) = rsum (map (fun a => rsum (map (fun b => f a * f b) l)) l).
Proof.
  transitivity (rsum (map (fun a => rsum (map f l) * f a) l)); [rewrite rsum_map_scal; reflexivity|]. f_equal. apply map_ext. intros a.
  rewrite rsum_map_scal. ring.
Qed.
Lemma rsum_delta i v k s : rsum (map (fun b => if Nat.eq_dec i b then v else 0) (seq s k)) = if andb (Nat.leb s i) (Nat.ltb i (s + k)) then v else 0.
Proof.
  revert s. induction k as [|k IH]; intros s; cbn [seq map].
  - destruct (Nat.leb_spec s i), (Nat.ltb_spec i (s + 0)); cbn [andb rsum]; try reflexivity; lia.
  - change (rsum ((if Nat.eq_dec i s then v else 0) :: map (fun b => if Nat.eq_dec i b then v else 0) (seq (S s) k))) with ((if Nat.eq_dec i s then v else 0) + rsum (map (fun b => if Nat.eq_dec i b then v else 0) (seq (S s) k))).
    rewrite IH. destruct (Nat.eq_dec i s); destruct (Nat.leb_spec s i), (Nat.ltb_spec i (s + S k)), (Nat.leb_spec (S s) i), (Nat.ltb_spec i (S s + k)); cbn [andb]; try lra; try lia.
Qed.
Lemma E_square j : (j < N)%nat -> I (fun w => (smean j w - mu j) * (smean j w - mu j)) /\ E (fun w => (smean j w - mu j) * (smean j w - mu j)) = var j / INR n.
Proof.
  intros Hj. assert (Hn : 0 < INR n) by (apply lt_0_INR; exact npos).
  assert (Q : forall w, / (INR n * INR n) * rsum (map (fun i => rsum (map (fun k => (Y w j i - mu j) * (Y w j k - mu j)) (seq 0 n))) (seq 0 n)) = (smean j w - mu j) * (smean j w - mu j)).
  { intros w. rewrite <- (rsum_prod (fun i => Y w j i - mu j)). rewrite rsum_map_minus, rsum_map_const, seq_length. unfold smean, rmean. rewrite map_length, seq_length. field. lra. }
  destruct (E_sum (fun i w => rsum (map (fun k => (Y w j i - mu j) * (Y w j k - mu j)) (seq 0 n))) (seq 0 n)) as [I1 E1].
  { intros i Hi. apply in_seq in Hi. apply (E_sum (fun k w => (Y w j i - mu j) * (Y w j k - mu j))). intros k Hk. apply in_seq in Hk. apply EC; lia. }
  destruct (E_scal (/ (INR n * INR n)) _ I1) as [I2 E2]. split; [exact (e_ext _ _ HE _ _ Q I2)|]. rewrite <- (E_eq _ _ Q I2), E2, E1.
  rewrite (map_ext_in _ (fun _ => var j)).
  - rewrite rsum_map_const, seq_length. field. lra.
  - intros i Hi. apply in_seq in Hi. destruct (E_sum (fun k w => (Y w j i - mu j) * (Y w j k - mu j)) (seq 0 n)) as [_ E3]; [intros k Hk; apply in_seq in Hk; apply EC; lia|].
    refine (eq_trans E3 _). rewrite (map_ext_in _ (fun k => if Nat.eq_dec i k then var j else 0)) by (intros k Hk; apply in_seq in Hk; apply EC; lia).
    rewrite rsum_delta. destruct (Nat.leb_spec 0 i), (Nat.ltb_spec i (0 + n)); cbn; try reflexivity; lia.
Qed.

Lemma ln_ratio_bound d s m : 0 < d < 1 -> 0 < s -> 0 < m -> Rabs (s - m) <= d * m -> Rabs (ln s - ln m) <= - ln (1 - d).
Proof.
  intros Hd Hs Hm H. apply Rabs_le in H || idtac. assert (A : (1 - d) * m <= s <= (1 + d) * m).
  { unfold Rabs in H. destruct (Rcase_abs (s - m)); lra. }
  assert (L1 : ln (1 - d) + ln m <= ln s). { rewrite <- ln_mult by lra. destruct A as [[A|A] _]; [left; apply ln_increasing; [nra|exact A]|right; f_equal; exact A]. }
  assert (L2 : ln s <= ln (1 + d) + ln m). { rewrite <- ln_mult by lra. destruct A as [_ [A|A]]; [left; apply ln_increasing; assumption|right; f_equal; exact A]. }
  assert (L3 : ln (1 + d) + ln (1 - d) <= 0). { rewrite <- ln_mult by lra. pose proof (ln_le_pred ((1 + d) * (1 - d)) ltac:(nra)). nra. }
  unfold Rabs. destruct (Rcase_abs (ln s - ln m)); lra.
Qed.
Lemma rabs_rmean_diff {A} (f g : A -> R) l b : l <> [] -> (forall a, In a l -> Rabs (f a - g a) <= b) -> Rabs (rmean (map f l) - rmean (map g l)) <= b.
Proof.
  intros Hl H. rewrite <- rmean_map_minus. assert (U : rmean (map (fun a => f a - g a) l) <= b /\ - b <= rmean (map (fun a => f a - g a) l)).
  { split.
    - rewrite <- (rmean_map_const b l Hl). apply rmean_map_le. intros a Ha. specialize (H a Ha). pose proof (Rle_abs (f a - g a)). lra.
    - rewrite <- (rmean_map_const (- b) l Hl). apply rmean_map_le. intros a Ha. specialize (H a Ha). pose proof (Rle_abs (- (f a - g a))). rewrite Rabs_Ropp in H0. lra. }
  unfold Rabs. destruct (Rcase_abs _); lra.
Qed.

Lemma chebyshev c eps d (bad : X -> R) : (0 < N)%nat -> 0 < eps -> 0 < d < 1 -> I bad ->
  (forall w, bad w = 0 \/ bad w = 1 /\ - eps * ln (1 - d) < Rabs (obj c eps w - lim c eps)) ->
  E bad <= rsum (map (fun j => var j / (mu j * mu j)) (seq 0 N)) / (INR n * (d * d)).
Proof.
  intros HN He Hd Ib Hb. assert (Hn : 0 < INR n) by (apply lt_0_INR; exact npos).
  set (T := fun j w => / (d * d * (mu j * mu j)) * ((smean j w - mu j) * (smean j w - mu j))).
  assert (IT : forall j, (j < N)%nat -> I (T j) /\ E (T j) = / (d * d * (mu j * mu j)) * (var j / INR n)).
  { intros j Hj. destruct (E_square j Hj) as [I1 E1]. destruct (E_scal (/ (d * d * (mu j * mu j))) _ I1) as [I2 E2]. split; [exact I2|]. unfold T. rewrite E2, E1. reflexivity. }
  destruct (E_sum T (seq 0 N)) as [I5 E5]; [intros j Hj; apply in_seq in Hj; apply IT; lia|].
  apply Rle_trans with (E (fun w => rsum (map (fun j => T j w) (seq 0 N)))).
  - apply (e_mono _ _ HE); auto. intros w.
    assert (Tp : forall j, In j (seq 0 N) -> 0 <= T j w).
    { intros j Hj. apply in_seq in Hj. specialize (mupos j ltac:(lia)). apply Rmult_le_pos; [left; apply Rinv_0_lt_compat; apply Rmult_lt_0_compat; nra|apply Rle_0_sqr]. }
    destruct (Hb w) as [->|[-> Far]]; [apply rsum_map_nonneg; exact Tp|].
    destruct (List.Exists_dec (fun j => d * mu j < Rabs (smean j w - mu j)) (seq 0 N)) as [Ex|Nx]; [intros j; apply Rlt_dec| |].
    + apply Exists_exists in Ex. destruct Ex as (j & Hj & Lt). assert (T1 : 1 <= T j w).
      { pose proof Hj as Hj'. apply in_seq in Hj'. specialize (mupos j ltac:(lia)). unfold T. assert (D0 : 0 < d * mu j) by nra.
        assert (Sq : (d * mu j) * (d * mu j) <= (smean j w - mu j) * (smean j w - mu j)).
        { replace ((smean j w - mu j) * (smean j w - mu j)) with (Rabs (smean j w - mu j) * Rabs (smean j w - mu j)) by (unfold Rabs; destruct (Rcase_abs _); ring). nra. }
        apply (Rmult_le_reg_l (d * d * (mu j * mu j))); [apply Rmult_lt_0_compat; nra|]. rewrite <- (Rmult_assoc (d * d * (mu j * mu j))), Rinv_r by (apply Rgt_not_eq; apply Rmult_lt_0_compat; nra). nra. }
      apply Rle_trans with (1 := T1). clear - Hj Tp. induction (seq 0 N) as [|a l IH]; [destruct Hj|]. cbn. destruct Hj as [->|Hj].
      * assert (0 <= rsum (map (fun j => T j w) l)) by (apply rsum_map_nonneg; intros; apply Tp; right; assumption). lra.
      * assert (T j w <= rsum (map (fun j => T j w) l)) by (apply IH; [intros; apply Tp; right; assumption|exact Hj]). specialize (Tp a (or_introl eq_refl)). lra.
    + exfalso. apply Rlt_not_le in Far. apply Far. unfold obj, lim. replace (c + rmean (map (fun j => eps * ln (smean j w)) (seq 0 N)) - (c + rmean (map (fun j => eps * ln (mu j)) (seq 0 N)))) with (rmean (map (fun j => eps * ln (smean j w)) (seq 0 N)) - rmean (map (fun j => eps * ln (mu j)) (seq 0 N))) by ring.
      apply rabs_rmean_diff; [apply seq_ne; exact HN|]. intros j Hj. pose proof Hj as Hj'. apply in_seq in Hj'. rewrite <- Rmult_minus_distr_l, Rabs_mult, (Rabs_right eps) by lra.
      replace (- eps * ln (1 - d)) with (eps * - ln (1 - d)) by ring. apply Rmult_le_compat_l; [lra|]. apply ln_ratio_bound; [exact Hd|apply smean_pos; lia|apply mupos; lia|].
      apply Rnot_lt_le. intros Lt. apply Nx. apply Exists_exists. exists j. auto.
  - rewrite E5. right. rewrite (map_ext_in _ (fun j => / (INR n * (d * d)) * (var j / (mu j * mu j)))).
    + rewrite rsum_map_scal. unfold Rdiv. ring.
    + intros j Hj. apply in_seq in Hj. refine (eq_trans (proj2 (IT j ltac:(lia))) _). specialize (mupos j ltac:(lia)). field. lra.
Qed.
End Expectation.

(* leave-one-out *)
Lemma rsum_without (f : nat -> R) k n : (k <= n)%nat -> rsum (map f (without k n)) = rsum (map f (seq 0 (S n))) - f k.
Proof.
  intros H. unfold without. replace (S n) with (k + S (n - k))%nat by lia. rewrite seq_app, !map_app, !rsum_app. cbn [seq map plus]. 
  change (rsum (f k :: map f (seq (S k) (n - k)))) with (f k + rsum (map f (seq (S k) (n - k)))). lra.
Qed.
Lemma without_length k n : (k <= n)%nat -> length (without k n) = n.
Proof. intros H. unfold without. rewrite app_length, !seq_length. lia. Qed.
Lemma rsum_without_all (f : nat -> R) n : rsum (map (fun k => rsum (map f (without k n))) (seq 0 (S n))) = INR n * rsum (map f (seq 0 (S n))).
Proof.
  rewrite (map_ext_in _ (fun k => rsum (map f (seq 0 (S n))) - f k)) by (intros k Hk; apply in_seq in Hk; apply rsum_without; lia).
  rewrite rsum_map_minus, rsum_map_const, seq_length. rewrite S_INR. lra.
Qed.
Lemma mean_without (f : nat -> R) n : (0 < n)%nat -> rmean (map f (seq 0 (S n))) = rmean (map (fun k => rmean (map f (without k n))) (seq 0 (S n))).
Proof.
  intros Hn. assert (0 < INR n) by (apply lt_0_INR; exact Hn). assert (0 < INR (S n)) by (apply lt_0_INR; lia).
  rewrite (map_ext_in (fun k => rmean (map f (without k n))) (fun k => / INR n * rsum (map f (without k n)))).
  - rewrite rmean_map_scal. unfold rmean at 2. rewrite rsum_without_all, map_length, seq_length. unfold rmean. rewrite map_length, seq_length. field. lra.
  - intros k Hk. apply in_seq in Hk. unfold rmean. rewrite map_length, without_length by lia. unfold Rdiv. ring.
Qed.
(* concavity of the logarithm *)
Lemma ln_mean {A} (f : A -> R) l : l <> [] -> (forall a, In a l -> 0 < f a) -> rmean (map (fun a => ln (f a)) l) <= ln (rmean (map f l)).
Proof.
  intros Hl Hp. set (s := rmean (map f l)). assert (Hs : 0 < s).
  { unfold s, rmean. apply Rdiv_lt_0_compat; [apply rsum_pos; [apply map_neq_nil; exact Hl|apply Forall_map, Forall_forall; exact Hp]|]. rewrite map_length. apply lt_0_INR. destruct l; [contradiction|cbn; lia]. }
  apply Rle_trans with (rmean (map (fun a => (ln s - 1) + / s * f a) l)).
  - apply rmean_map_le. intros a Ha. specialize (Hp a Ha). pose proof (ln_le_pred (f a / s) ltac:(apply Rdiv_lt_0_compat; assumption)) as L. unfold Rdiv in L. rewrite ln_mult, ln_Rinv in L by (try apply Rinv_0_lt_compat; assumption). lra.
  - rewrite rmean_map_plus, rmean_map_const, rmean_map_scal by exact Hl. fold s. rewrite Rinv_l by lra. lra.
Qed.
Lemma rmean_swap {A B} (f : A -> B -> R) l m : rmean (map (fun a => rmean (map (fun b => f a b) m)) l) = rmean (map (fun b => rmean (map (fun a => f a b) l)) m).
Proof.
  unfold rmean. rewrite !map_length.
  assert (S : rsum (map (fun a => rsum (map (fun b => f a b) m)) l) = rsum (map (fun b => rsum (map (fun a => f a b) l)) m)).
  { induction l as [|a l IH].
    - cbn. rewrite (rsum_map_const 0 m). ring.
    - transitivity (rsum (map (f a) m) + rsum (map (fun b => rsum (map (fun a => f a b) l)) m)); [rewrite <- IH; reflexivity|]. rewrite <- rsum_map_plus. reflexivity. }
  rewrite (map_ext (fun a => rsum (map (fun b => f a b) m) / INR (length (map (fun b => f a b) m))) (fun a => / INR (length m) * rsum (map (fun b => f a b) m))) by (intros; rewrite map_length; unfold Rdiv; ring).
  rewrite (map_ext (fun b => rsum (map (fun a => f a b) l) / INR (length (map (fun a => f a b) l))) (fun b => / INR (length l) * rsum (map (fun a => f a b) l))) by (intros; rewrite map_length; unfold Rdiv; ring).
  rewrite !rsum_map_scal, S. unfold Rdiv. ring.
Qed.
