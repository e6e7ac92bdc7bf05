(* Property C149: the gradients from which the general tuner estimates the law of the radius. *)
From Coq Require Import Reals List Bool Lra Lia.
From Verif Require Import PyBase RList TunerGrad_Model TunerGrad_Spec.
Import ListNotations.
Local Open Scope R_scope.

(* ---------- lemmas ---------- *)
Fixpoint running (v : vec) (r : list vec) : list vec :=
  match r with [] => [] | g :: q => vadd v g :: running (vadd v g) q end.
Lemma fold_turn : forall r v l, read_h (fold_left turn r (Mem (Some v) (HRows l))) = l ++ running v r.
Proof.
  induction r as [|g r IH]; intros v l; simpl; [symmetry; apply app_nil_r|].
  unfold turn, backward; simpl. rewrite IH. rewrite <- app_assoc. reflexivity.
Qed.
Definition start (left : option vec) (g : vec) : vec := match left with None => g | Some v => vadd v g end.
Lemma collect_nil : forall left g, collect left [g] = Ok [start left g].
Proof. intros [v|] g; reflexivity. Qed.
Lemma collect_cons : forall left g h r, collect left (g :: h :: r) =
  Ok (vadd (start left g) h :: running (start left g) (h :: r)).
Proof.
  intros left g h r. unfold collect. simpl fold_left. unfold turn at 2, backward; simpl m_grad; simpl m_h.
  cbv zeta. fold (start left g). unfold read_h at 2; simpl m_h; simpl m_grad. rewrite fold_turn. reflexivity.
Qed.
Lemma collect_pf_cons : forall p left g r, collect_pf p left (g :: r) = Ok (p :: running (start left g) r).
Proof. intros p left g r. unfold collect_pf, backward; simpl. fold (start left g). rewrite fold_turn. reflexivity. Qed.
Lemma nth_vadd : forall k v g, List.length v = List.length g -> nth k (vadd v g) 0 = nth k v 0 + nth k g 0.
Proof.
  intros k v. revert k. induction v as [|a v IH]; intros k [|b g] E; simpl in E; try discriminate.
  - destruct k; simpl; lra.
  - destruct k; simpl; [reflexivity|]. apply IH. congruence.
Qed.
Lemma running_length : forall r v, List.length (running v r) = List.length r.
Proof. induction r; intros v; simpl; [reflexivity|]. rewrite IHr; reflexivity. Qed.
Lemma running_at : forall d r v i k, List.length v = d -> table d r -> (i < List.length r)%nat ->
  at_ (running v r) i k = nth k v 0 + rsum (map (fun q => nth k q 0) (firstn (S i) r)).
Proof.
  intros d; induction r as [|g r IH]; intros v i k L T Hi; simpl in Hi; [lia|].
  pose proof (Forall_inv T) as Tg. pose proof (Forall_inv_tail T) as Tr. simpl in Tg.
  destruct i as [|i].
  - unfold at_; simpl. rewrite nth_vadd by congruence. lra.
  - change (at_ (running v (g :: r)) (S i) k) with (at_ (running (vadd v g) r) i k).
    rewrite IH; [|rewrite vadd_length; congruence|exact Tr|lia].
    rewrite nth_vadd by congruence. simpl. lra.
Qed.
Definition left_ok (d : nat) (left : option vec) : Prop := match left with None => True | Some v => List.length v = d end.
Lemma start_length : forall d left g, left_ok d left -> List.length g = d -> List.length (start left g) = d.
Proof. intros d [v|] g H K; simpl in *; [rewrite vadd_length; congruence|exact K]. Qed.
Lemma start_at : forall d left g k, left_ok d left -> List.length g = d ->
  nth k (start left g) 0 = match left with None => 0 | Some v => nth k v 0 end + nth k g 0.
Proof. intros d [v|] g k H K; simpl in *; [apply nth_vadd; congruence|lra]. Qed.

(* ---------- C149 ---------- *)
(* Row i of h_samples_ is not the gradient at sample i but the sum of all gradients so far, on top of what the first fit left in
   theta.grad; the first row is overwritten by the second backward, because it is the tensor theta.grad itself. *)
Theorem C149_rows : forall d left G, left_ok d left -> table d G -> (2 <= List.length G)%nat ->
  exists H, collect left G = Ok H /\ List.length H = List.length G /\
    forall i k, (i < List.length G)%nat -> at_ H i k = running_total left G (Nat.max i 1) k.
Proof.
  intros d left [|g [|h r]] L T N; simpl in N; try lia.
  rewrite collect_cons. eexists. split; [reflexivity|]. split; [simpl; rewrite running_length; reflexivity|].
  pose proof (Forall_inv T) as Tg. pose proof (Forall_inv_tail T) as Tr. simpl in Tg.
  pose proof (Forall_inv Tr) as Th. simpl in Th.
  intros i k Hi. unfold running_total.
  destruct i as [|i].
  - unfold at_; simpl. rewrite nth_vadd by (rewrite (start_length d); congruence).
    rewrite (start_at d) by assumption. lra.
  - replace (Nat.max (S i) 1) with (S i) by lia.
    change (at_ (vadd (start left g) h :: running (start left g) (h :: r)) (S i) k) with (at_ (running (start left g) (h :: r)) i k).
    rewrite (running_at d); [|apply (start_length d); assumption|exact Tr|simpl in *; lia].
    rewrite (start_at d) by assumption.
    change (firstn (S (S i)) (g :: h :: r)) with (g :: firstn (S i) (h :: r)).
    simpl map. simpl rsum. lra.
Qed.
Print Assumptions C149_rows.
(* A single sample, with nothing left by the first fit, is the case that is right. *)
Theorem C149_single : forall g, collect None [g] = Ok [g].
Proof. intros g. reflexivity. Qed.
Print Assumptions C149_single.

(* With three samples or more, the rows are the gradients only if all gradients but the last vanish, together with what was left. *)
Lemma rsum_firstn_S : forall (l : list R) i, (i < List.length l)%nat -> rsum (firstn (S i) l) = rsum (firstn i l) + nth i l 0.
Proof.
  induction l as [|a l IH]; intros i Hi; simpl in Hi; [lia|].
  destruct i as [|i]; [simpl; lra|].
  change (firstn (S (S i)) (a :: l)) with (a :: firstn (S i) l). change (firstn (S i) (a :: l)) with (a :: firstn i l).
  assert (forall b (x : list R), rsum (b :: x) = b + rsum x) as C by reflexivity. rewrite !C, IH by lia. simpl nth. lra.
Qed.
Lemma total_step : forall left G i k, (S i < List.length G)%nat -> running_total left G (S i) k = running_total left G i k + at_ G (S i) k.
Proof.
  intros left G i k Hi. unfold running_total. unfold vec in *. rewrite <- !firstn_map.
  rewrite (rsum_firstn_S (map (fun r => nth k r 0) G) (S i)) by (rewrite map_length; exact Hi).
  replace (nth (S i) (map (fun r => nth k r 0) G) 0) with (at_ G (S i) k); [lra|].
  unfold at_. rewrite (nth_indep (map (fun r : list R => nth k r 0) G) 0 ((fun r : list R => nth k r 0) [])) by (rewrite map_length; exact Hi).
  rewrite (map_nth (fun r : list R => nth k r 0)). reflexivity.
Qed.
Lemma total_0 : forall left G k, G <> [] -> running_total left G 0 k = match left with None => 0 | Some v => nth k v 0 end + at_ G 0 k.
Proof. intros left [|g G] k N; [congruence|]. unfold running_total, at_; simpl. lra. Qed.
Theorem C149_right_iff : forall d left G H, left_ok d left -> table d G -> (3 <= List.length G)%nat -> collect left G = Ok H ->
  (forall i k, (i < List.length G)%nat -> at_ H i k = at_ G i k) <->
  (forall k, match left with None => 0 | Some v => nth k v 0 end = 0) /\ (forall i k, (S i < List.length G)%nat -> at_ G i k = 0).
Proof.
  intros d left G H L T N E.
  destruct (C149_rows d left G L T ltac:(lia)) as [H' [E' [_ A]]]. assert (H' = H) by congruence. subst H'.
  assert (G <> []) as NE by (intros ->; simpl in N; lia).
  split.
  - intros R'.
    assert (forall i k, (S i < List.length G)%nat -> running_total left G i k = 0) as Z.
    { intros i k Hi. pose proof (R' (S i) k Hi) as Q. rewrite A in Q by lia.
      replace (Nat.max (S i) 1) with (S i) in Q by lia. rewrite total_step in Q by lia. lra. }
    assert (forall i k, (S (S i) < List.length G)%nat -> at_ G (S i) k = 0) as Z1.
    { intros i k Hi. pose proof (Z (S i) k Hi). pose proof (Z i k ltac:(lia)). rewrite total_step in H0 by lia. lra. }
    assert (forall k, at_ G 0 k = 0) as Z0.
    { intros k. pose proof (R' 0%nat k ltac:(lia)) as Q. rewrite A in Q by lia. simpl Nat.max in Q.
      rewrite total_step in Q by lia. rewrite Z in Q by lia. rewrite Z1 in Q by lia. lra. }
    split.
    + intros k. pose proof (Z 0%nat k ltac:(lia)) as Q. rewrite total_0 in Q by exact NE. rewrite Z0 in Q. lra.
    + intros [|i] k Hi; [apply Z0|apply Z1; lia].
  - intros [Lz Gz] i k Hi. rewrite A by exact Hi.
    assert (forall j, (S j < List.length G)%nat -> running_total left G j k = 0) as Z.
    { induction j as [|j IH]; intros Hj.
      - rewrite total_0 by exact NE. rewrite Lz, Gz by lia. lra.
      - rewrite total_step by lia. rewrite IH by lia. rewrite Gz by lia. lra. }
    destruct i as [|i].
    + simpl Nat.max. rewrite total_step by lia. rewrite Z by lia. rewrite !Gz by lia. lra.
    + replace (Nat.max (S i) 1) with (S i) by lia. rewrite total_step by lia. rewrite Z by lia. lra.
Qed.
Print Assumptions C149_right_iff.
(* The property fails: three samples whose gradients are 1, 2 and 3. *)
Theorem C149_rows_refuted : exists G H, table 1 G /\ collect None G = Ok H /\ H <> G /\ at_ H 0 0 = 3 /\ at_ H 1 0 = 3 /\ at_ H 2 0 = 6.
Proof.
  exists [[1]; [2]; [3]], [[1 + 2]; [1 + 2]; [1 + 2 + 3]].
  split; [repeat constructor|]. split; [reflexivity|]. split; [intros Q; injection Q; intros; lra|].
  unfold at_; simpl. repeat split; lra.
Qed.
Print Assumptions C149_rows_refuted.

(* Gradients that are all equal have no spread; the tuner finds one, however many samples there are (three or more). *)
Lemma spread_pos : forall l a b, In a l -> In b l -> a <> b -> 0 < spread l.
Proof.
  intros l a b Ia Ib N. unfold spread.
  assert (0 <= rsum (map (fun x => Rsqr (x - rmean l)) l)) as P by (apply rsum_map_nonneg; intros; apply Rle_0_sqr).
  destruct (Rle_lt_or_eq_dec _ _ P) as [Q|Q]; [exact Q|exfalso].
  pose proof (rsum_zero_nonneg (map (fun x => Rsqr (x - rmean l)) l)) as Z.
  assert (Forall (fun x => x = 0) (map (fun x => Rsqr (x - rmean l)) l)) as F.
  { apply Z; [|congruence]. apply Forall_forall. intros x Hx. apply in_map_iff in Hx. destruct Hx as [w [<- _]]. apply Rle_0_sqr. }
  rewrite Forall_forall in F.
  pose proof (F _ (in_map (fun x => Rsqr (x - rmean l)) l a Ia)) as Fa.
  pose proof (F _ (in_map (fun x => Rsqr (x - rmean l)) l b Ib)) as Fb.
  apply Rsqr_eq_0 in Fa. apply Rsqr_eq_0 in Fb. lra.
Qed.
Lemma cov_diag : forall corr H i, cov_of corr H i i = spread (column H i) / (INR (List.length H) - corr).
Proof. intros corr H i. unfold cov_of, spread. rewrite map2_same. reflexivity. Qed.
Lemma column_in : forall H i k, (i < List.length H)%nat -> In (at_ H i k) (column H k).
Proof. intros H i k Hi. unfold at_, column. apply (in_map (fun r => nth k r 0) H). apply nth_In. exact Hi. Qed.
Theorem C149_equal_gradients : forall d n g k, List.length g = d -> (3 <= n)%nat -> nth k g 0 <> 0 ->
  exists H, collect None (repeat g n) = Ok H /\ 0 < blanchet_cov d H k k /\ blanchet_cov d (repeat g n) k k = 0.
Proof.
  intros d n g k L N NZ.
  assert (table d (repeat g n)) as T by (apply Forall_forall; intros x Hx; apply repeat_spec in Hx; rewrite Hx; exact L).
  destruct (C149_rows d None (repeat g n) I T) as [H [E [LH A]]]; [rewrite repeat_length; lia|].
  rewrite repeat_length in *.
  exists H. split; [exact E|].
  assert (forall i, (i < n)%nat -> at_ (repeat g n) i k = nth k g 0) as RG.
  { intros i Hi. unfold at_. f_equal. apply (repeat_spec n g). apply nth_In. rewrite repeat_length. exact Hi. }
  assert (3 <= INR n) as N3 by (apply le_INR in N; simpl in N; lra).
  assert (0 < INR n - (if Nat.eqb d 1 then 0 else 1)) as D by (destruct (Nat.eqb d 1); lra).
  split.
  - unfold blanchet_cov. rewrite cov_diag, LH. apply Rmult_lt_0_compat; [|apply Rinv_0_lt_compat; exact D].
    apply (spread_pos _ (at_ H 1 k) (at_ H 2 k)); [apply column_in; lia|apply column_in; lia|].
    rewrite !A by lia. simpl Nat.max. rewrite (total_step None (repeat g n) 1 k) by (rewrite repeat_length; lia).
    rewrite RG by lia. intros Q. apply NZ. lra.
  - unfold blanchet_cov. rewrite cov_diag.
    assert (spread (column (repeat g n) k) = 0) as ->; [|unfold Rdiv; ring].
    assert (column (repeat g n) k = map (fun _ => nth k g 0) (repeat g n)) as ->.
    { apply map_ext_in. intros x Hx. apply repeat_spec in Hx. subst. reflexivity. }
    unfold spread. rewrite rmean_map_const by (destruct n; [lia|discriminate]). rewrite map_map.
    rewrite rsum_map_const. unfold Rsqr. ring.
Qed.
Print Assumptions C149_equal_gradients.

(* The matrix is the covariance of the rows: each entry is the mean over the pairs of rows of half the products of differences,
   all ordered pairs of distinct rows with several parameters (unbiased), all n^2 pairs with one. *)
Lemma map2_columns : forall (f : R -> R -> R) H i j, map2 f (column H i) (column H j) = map (fun r => f (nth i r 0) (nth j r 0)) H.
Proof. intros f H i j. unfold column. rewrite map2_map_l, map2_map_r, map2_same. reflexivity. Qed.
Theorem C149_covariance : forall d H i j, (2 <= List.length H)%nat ->
  blanchet_cov d H i j = pair_sum H i j / (2 * INR (List.length H) * (INR (List.length H) - if Nat.eqb d 1 then 0 else 1)).
Proof.
  intros d H i j N. apply le_INR in N. simpl INR in N. unfold blanchet_cov, cov_of, vec in *.
  rewrite map2_columns. set (n := INR (List.length H)) in *. set (c := if Nat.eqb d 1 then 0 else 1).
  assert (n - c <> 0) as D by (unfold c; destruct (Nat.eqb d 1); lra).
  set (a := fun r : list R => nth i r 0). set (b := fun r : list R => nth j r 0).
  set (sa := rsum (map a H)). set (sb := rsum (map b H)). set (sab := rsum (map (fun r => a r * b r) H)).
  assert (rmean (column H i) = sa / n) as -> by (unfold rmean, column, sa, n; rewrite map_length; reflexivity).
  assert (rmean (column H j) = sb / n) as -> by (unfold rmean, column, sb, n; rewrite map_length; reflexivity).
  assert (forall x y, rsum (map (fun s => (x - a s) * (y - b s)) H) = n * (x * y) - x * sb - y * sa + sab) as K.
  { intros x y. unfold n, sa, sb, sab. clear. induction H as [|r H IH]; [simpl; ring|].
    cbn [map].
    assert (forall u (l : list R), rsum (u :: l) = u + rsum l) as C by reflexivity. rewrite !C, IH.
    change (List.length (r :: H)) with (S (List.length H)). rewrite S_INR. ring. }
  assert (pair_sum H i j = 2 * n * sab - 2 * sa * sb) as ->.
  { unfold pair_sum.
    transitivity (rsum (map (fun r => n * (a r * b r) - a r * sb - b r * sa + sab) H)); [f_equal; apply map_ext; intros r; apply (K (a r) (b r))|].
    rewrite rsum_map_plus, !rsum_map_minus, rsum_map_scal, rsum_map_const.
    rewrite (map_ext (fun r => a r * sb) (fun r => sb * a r)) by (intros; ring).
    rewrite (map_ext (fun r => b r * sa) (fun r => sa * b r)) by (intros; ring).
    rewrite !rsum_map_scal. fold n sa sb sab. ring. }
  replace (rsum (map (fun r => (nth i r 0 - sa / n) * (nth j r 0 - sb / n)) H)) with (sab - sa * sb / n).
  - field. split; [exact D|lra].
  - symmetry. transitivity (rsum (map (fun s => (sa / n - a s) * (sb / n - b s)) H)); [f_equal; apply map_ext; intros r; unfold a, b; ring|].
    rewrite K. field. lra.
Qed.
Print Assumptions C149_covariance.
Example C149_covariance_case : blanchet_cov 2 [[0; 1]; [2; 5]] 0 1 = 4 /\ pair_sum [[0; 1]; [2; 5]] 0 1 = 16.
Proof. unfold blanchet_cov, cov_of, column, rmean, pair_sum; simpl. split; field. Qed.

(* The first row of a Portfolio is the parameters themselves: it depends on no sample, whatever the gradients. *)
Theorem C149_portfolio_rows : forall d p left G, left_ok d left -> table d G -> G <> [] ->
  exists H, collect_pf p left G = Ok H /\ List.length H = List.length G /\
    (forall k, at_ H 0 k = nth k p 0) /\ (forall i k, (S i < List.length G)%nat -> at_ H (S i) k = running_total left G (S i) k).
Proof.
  intros d p left [|g r] L T N; [congruence|]. rewrite collect_pf_cons. eexists. split; [reflexivity|].
  split; [simpl; rewrite running_length; reflexivity|]. split; [intros k; reflexivity|].
  pose proof (Forall_inv T) as Tg. pose proof (Forall_inv_tail T) as Tr. simpl in Tg.
  intros i k Hi. change (at_ (p :: running (start left g) r) (S i) k) with (at_ (running (start left g) r) i k).
  rewrite (running_at d); [|apply (start_length d); assumption|exact Tr|simpl in *; lia].
  rewrite (start_at d) by assumption. unfold running_total.
  change (firstn (S (S i)) (g :: r)) with (g :: firstn (S i) r). simpl map. simpl rsum. lra.
Qed.
Print Assumptions C149_portfolio_rows.
Theorem C149_portfolio_refuted : exists p G H, table 2 G /\ collect_pf p None G = Ok H /\ at_ H 0 0 <> at_ G 0 0.
Proof.
  exists [1; 0], [[-3; 1]; [-3; 1]], [[1; 0]; [-3 + -3; 1 + 1]].
  split; [repeat constructor|]. split; [reflexivity|]. unfold at_; simpl. lra.
Qed.
Print Assumptions C149_portfolio_refuted.

(* The gradients themselves are taken at the mean label when the data are arrays, at each sample's label when they are tensors
   or without labels. *)
Theorem C149_labels : forall lg X l, List.length l = List.length X ->
  output_grads lg true X (Some l) = own_gradients lg X (Some l) /\
  output_grads lg false X (Some l) = own_gradients lg X (Some (repeat (rmean l) (List.length X))) /\
  (forall t, output_grads lg t X None = own_gradients lg X None).
Proof.
  intros lg X l E. unfold output_grads, own_gradients, diff_convert, row_labels. split; [|split].
  - rewrite map2_map_r. reflexivity.
  - clear E. induction X as [|x X IH]; simpl; [reflexivity|]. rewrite IH. reflexivity.
  - intros t. clear E. induction X as [|x X IH]; simpl; [reflexivity|]. rewrite IH. reflexivity.
Qed.
Print Assumptions C149_labels.
(* Linear regression through the origin, in one dimension: the gradient in theta of (theta x - y)^2 / 2 at (x, y). *)
Definition ols_grad (theta : R) (x : vec) (y : option R) : vec := [hd 0 x * (theta * hd 0 x - match y with Some a => a | None => 0 end)].
Theorem C149_labels_refuted : exists theta X l, List.length l = List.length X /\
  own_gradients (ols_grad theta) X (Some l) = [[0]; [0]] /\ output_grads (ols_grad theta) false X (Some l) <> [[0]; [0]].
Proof.
  exists 1, [[1]; [3]], [1; 3]. split; [reflexivity|]. split.
  - unfold own_gradients, ols_grad; simpl. repeat f_equal; lra.
  - unfold output_grads, ols_grad, diff_convert, row_labels, rmean; simpl. intros Q. injection Q as Q1 Q2. lra.
Qed.
Print Assumptions C149_labels_refuted.

(* With one parameter the draws have the variance for scale: they are the draws of the limit law only when the variance is 0 or 1. *)
Theorem C149_scale : forall H, (1 <= List.length H)%nat ->
  0 <= blanchet_cov 1 H 0 0 /\
  ((forall z, blanchet_draw1 H z = sqrt (blanchet_cov 1 H 0 0) * z) <-> blanchet_cov 1 H 0 0 = 0 \/ blanchet_cov 1 H 0 0 = 1).
Proof.
  intros H N.
  assert (0 <= blanchet_cov 1 H 0 0) as P.
  { unfold blanchet_cov. simpl Nat.eqb. cbv iota. rewrite cov_diag. apply le_INR in N. simpl in N.
    apply Rmult_le_pos; [apply rsum_map_nonneg; intros; apply Rle_0_sqr|left; apply Rinv_0_lt_compat; lra]. }
  split; [exact P|]. unfold blanchet_draw1. set (v := blanchet_cov 1 H 0 0) in *.
  split.
  - intros Q. specialize (Q 1). rewrite !Rmult_1_r in Q. pose proof (sqrt_sqrt v P) as S. rewrite <- Q in S.
    destruct (Req_dec v 0); [left; assumption|right]. apply (Rmult_eq_reg_l v); lra.
  - intros [-> | ->] z; [rewrite sqrt_0|rewrite sqrt_1]; reflexivity.
Qed.
Print Assumptions C149_scale.
Theorem C149_scale_refuted : exists H, blanchet_cov 1 H 0 0 = 4 /\ blanchet_draw1 H 1 = 4 /\ sqrt (blanchet_cov 1 H 0 0) * 1 = 2.
Proof.
  exists [[0]; [4]]. unfold blanchet_draw1.
  assert (blanchet_cov 1 [[0]; [4]] 0 0 = 4) as -> by (unfold blanchet_cov, cov_of, column, rmean; simpl; field).
  split; [reflexivity|]. split; [lra|]. replace 4 with (2 * 2) by lra. rewrite sqrt_square by lra. lra.
Qed.
Print Assumptions C149_scale_refuted.

(* With several parameters the lifted matrix is positive definite, as the comment says, when eigvalsh returns a lower bound of the
   quadratic form; and every diagonal entry is larger than the covariance by at least 1e-4. *)
Lemma rsum_pick : forall (f : nat -> R) i n s, (s <= i < s + n)%nat ->
  rsum (map (fun j => f j * (if Nat.eqb i j then 1 else 0)) (seq s n)) = f i.
Proof.
  intros f i n; induction n as [|n IH]; intros s Hi; [lia|]. simpl.
  destruct (Nat.eq_dec i s) as [->|Ne].
  - rewrite Nat.eqb_refl.
    replace (rsum (map (fun j => f j * (if Nat.eqb s j then 1 else 0)) (seq (S s) n))) with 0; [lra|].
    symmetry. rewrite (map_ext_in _ (fun _ => 0)).
    + rewrite rsum_map_const. ring.
    + intros j Hj. apply in_seq in Hj. rewrite (proj2 (Nat.eqb_neq s j)) by lia. ring.
  - rewrite (proj2 (Nat.eqb_neq i s)) by exact Ne. rewrite IH by lia. ring.
Qed.
Lemma qform_lifted : forall d low A v, qform d (lifted low A) v =
  qform d A v + (Rmax 0 (- low) + 1 / 10000) * rsum (map (fun i => Rsqr (v i)) (seq 0 d)).
Proof.
  intros d low A v. unfold qform. rewrite <- rsum_map_scal, <- rsum_map_plus. f_equal. apply map_ext_in.
  intros i Hi. apply in_seq in Hi. set (c := Rmax 0 (- low) + 1 / 10000).
  transitivity (rsum (map (fun j => v i * A i j * v j + (v i * c * v j) * (if Nat.eqb i j then 1 else 0)) (seq 0 d))).
  { f_equal. apply map_ext. intros j. unfold lifted. fold c. ring. }
  rewrite rsum_map_plus. f_equal. rewrite (rsum_pick (fun j => v i * c * v j)) by lia. unfold Rsqr. ring.
Qed.
Theorem C149_positive_definite : forall d low A v,
  (forall w, low * rsum (map (fun i => Rsqr (w i)) (seq 0 d)) <= qform d A w) ->
  1 / 10000 * rsum (map (fun i => Rsqr (v i)) (seq 0 d)) <= qform d (lifted low A) v /\
  (forall i, A i i + 1 / 10000 <= lifted low A i i).
Proof.
  intros d low A v B. split.
  - rewrite qform_lifted. specialize (B v). set (s := rsum (map (fun i => Rsqr (v i)) (seq 0 d))) in *.
    assert (0 <= s) as P by (apply rsum_map_nonneg; intros; apply Rle_0_sqr).
    pose proof (Rmax_r 0 (- low)) as M. assert (- low * s <= Rmax 0 (- low) * s) by (apply Rmult_le_compat_r; assumption).
    lra.
  - intros i. unfold lifted. rewrite Nat.eqb_refl. pose proof (Rmax_l 0 (- low)). lra.
Qed.
Print Assumptions C149_positive_definite.

(* A Portfolio solved by the dedicated solver is refused, and so is an empty dataset. *)
Theorem C149_refusals : forall lg tensors params left X y,
  blanchet_h lg true true tensors params left X y = Raise NotImplementedError /\
  (forall dedicated, blanchet_h lg false dedicated tensors params left [] y = Raise IndexError) /\
  (X <> [] -> (forall l, y = Some l -> List.length l = List.length X) ->
   exists H, blanchet_h lg false false tensors params left X y = Ok H).
Proof.
  intros lg tensors params left X y. split; [reflexivity|]. split; [reflexivity|].
  intros N E. unfold blanchet_h.
  assert (output_grads lg tensors X y <> []) as NG.
  { destruct X as [|x X]; [congruence|]. unfold output_grads, row_labels, diff_convert.
    destruct y as [[|a l]|]; [exfalso; specialize (E [] eq_refl); discriminate| |]; destruct tensors; discriminate. }
  destruct (output_grads lg tensors X y); [congruence|]. simpl. eauto.
Qed.
Print Assumptions C149_refusals.

(* ---------- examples ---------- *)
Example C149_rows_case : left_ok 1 (Some [5]) /\ table 1 [[1]; [2]; [3]] /\
  collect (Some [5]) [[1]; [2]; [3]] = Ok [[5 + 1 + 2]; [5 + 1 + 2]; [5 + 1 + 2 + 3]].
Proof. split; [reflexivity|]. split; [repeat constructor|reflexivity]. Qed.
Example C149_right_iff_case : exists H, collect None [[0]; [0]; [7]] = Ok H /\ at_ H 2 0 = 7 /\ at_ H 0 0 = 0.
Proof. eexists. split; [reflexivity|]. unfold at_; simpl. split; lra. Qed.
Example C149_equal_gradients_case : exists H, collect None (repeat [2] 3) = Ok H /\ 0 < blanchet_cov 1 H 0 0.
Proof.
  destruct (C149_equal_gradients 1 3 [2] 0 eq_refl (le_n 3)) as [H [E [P _]]]; [simpl; lra|]. exists H. split; assumption.
Qed.
Example C149_portfolio_case : left_ok 2 None /\ table 2 [[-3; 1]; [-3; 1]] /\
  collect_pf [1; 0] None [[-3; 1]; [-3; 1]] = Ok [[1; 0]; [-3 + -3; 1 + 1]].
Proof. split; [exact I|]. split; [repeat constructor|reflexivity]. Qed.
Example C149_labels_case : output_grads (ols_grad 1) true [[1]; [3]] (Some [1; 3]) = [[1 * (1 * 1 - 1)]; [3 * (1 * 3 - 3)]].
Proof. reflexivity. Qed.
Example C149_scale_case : blanchet_cov 1 [[0]; [2]] 0 0 = 1 /\ blanchet_draw1 [[0]; [2]] 3 = 3.
Proof. unfold blanchet_draw1, blanchet_cov, cov_of, column, rmean; simpl. split; field. Qed.
(* the matrix with -1 on the diagonal: -1 bounds it from below *)
Example C149_positive_definite_case : forall w, -1 * rsum (map (fun i => Rsqr (w i)) (seq 0 2)) <=
  qform 2 (fun i j => if Nat.eqb i j then -1 else 0) w.
Proof. intros w. unfold qform, Rsqr; simpl. lra. Qed.
Example C149_refusals_case : exists H, blanchet_h (ols_grad 1) false false false [] None [[1]; [3]] (Some [1; 3]) = Ok H /\ List.length H = 2%nat.
Proof. eexists. split; [reflexivity|reflexivity]. Qed.

(* The whole of :134-158 for numeric labels given as tensors: every estimator but the portfolio gets the running totals of the samples'
   own gradients, with the first row overwritten; the portfolio gets its parameters as the first row. *)
Theorem C149_fit : forall lg d dedicated params left X l, left_ok d left -> List.length l = List.length X -> (2 <= List.length X)%nat ->
  (forall x y, List.length (lg x y) = d) ->
  let G := own_gradients lg X (Some l) in
  (exists H, blanchet_h lg false dedicated true params left X (Some l) = Ok H /\ List.length H = List.length X /\
     forall i k, (i < List.length X)%nat -> at_ H i k = running_total left G (Nat.max i 1) k) /\
  (exists H, blanchet_h lg true false true params left X (Some l) = Ok H /\ List.length H = List.length X /\
     (forall k, at_ H 0 k = nth k params 0) /\ forall i k, (S i < List.length X)%nat -> at_ H (S i) k = running_total left G (S i) k).
Proof.
  intros lg d dedicated params left X l L E N D G.
  pose proof (proj1 (C149_labels lg X l E)) as O1. fold G in O1.
  assert (T : table d G /\ List.length G = List.length X).
  { unfold G. clear -E D. unfold own_gradients. revert l E. induction X as [|x X IH]; intros [|a l] E; try discriminate; [split; [constructor|reflexivity]|].
    destruct (IH l ltac:(injection E; auto)) as [T1 T2]. split; [constructor; [apply D|exact T1]|]. simpl. f_equal. exact T2. }
  destruct T as [T Lg]. split.
  - destruct (C149_rows d left G L T ltac:(lia)) as (H & H1 & H2 & H3). exists H. unfold blanchet_h. rewrite O1. split; [exact H1|]. split; [lia|]. intros i k Hi. apply H3. lia.
  - destruct (C149_portfolio_rows d params left G L T) as (H & H1 & H2 & H3 & H4); [destruct G; [simpl in Lg; lia|discriminate]|].
    exists H. unfold blanchet_h. rewrite O1. split; [exact H1|]. split; [lia|]. split; [exact H3|]. intros i k Hi. apply H4. lia.
Qed.
Print Assumptions C149_fit.
Example C149_fit_case : left_ok 1 (Some [5]) /\ (forall x y, List.length (ols_grad 1 x y) = 1%nat) /\
  own_gradients (ols_grad 1) [[1]; [3]] (Some [1; 3]) = [[0]; [0]].
Proof. split; [reflexivity|]. split; [intros; reflexivity|]. unfold own_gradients, ols_grad; simpl. repeat f_equal; lra. Qed.
