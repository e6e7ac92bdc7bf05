(* Proofs about the dedicated newsvendor solver. *)
From Coq Require Import Reals List Bool Lra Lia Permutation Sorted.
From Verif Require Import PyBase RList XReal NewsV_Model NewsV_Spec.
Import ListNotations.
Local Open Scope R_scope.

(* ---------- sorting ---------- *)
Lemma insert_perm x l : Permutation (insert x l) (x :: l).
Proof.
  induction l as [|y l IH]; simpl; [reflexivity|]. destruct (Rle_dec x y); [reflexivity|].
  rewrite IH. apply perm_swap.
Qed.
Lemma nsort_perm l : Permutation (nsort l) l.
Proof. induction l as [|x l IH]; simpl; [reflexivity|]. rewrite insert_perm. constructor; exact IH. Qed.

Inductive asc : list R -> Prop :=
| asc_nil : asc []
| asc_cons x l : asc l -> Forall (fun y => x <= y) l -> asc (x :: l).

Lemma insert_asc x l : asc l -> asc (insert x l).
Proof.
  induction 1 as [|y l H IH F]; simpl; [constructor; constructor|]. destruct (Rle_dec x y) as [L|L].
  - constructor; [constructor; assumption|]. constructor; [exact L|]. eapply Forall_impl; [|exact F]. intros; simpl in *; lra.
  - constructor; [exact IH|]. rewrite Forall_forall. intros z Hz. apply (Permutation_in z (insert_perm x l)) in Hz.
    destruct Hz as [<-|Hz]; [lra|]. rewrite Forall_forall in F. auto.
Qed.
Lemma nsort_asc l : asc (nsort l).
Proof. induction l as [|x l IH]; simpl; [constructor|]. apply insert_asc; exact IH. Qed.

Lemma asc_nth l : asc l -> forall i j, (i <= j)%nat -> (j < length l)%nat -> nth i l 0 <= nth j l 0.
Proof.
  induction 1 as [|x l H IH F]; simpl; intros i j Hij Hj; [lia|]. destruct i, j; try lia; try lra.
  - rewrite Forall_forall in F. apply F. apply nth_In. lia.
  - apply IH; lia.
Qed.

(* ---------- C48: the index search ---------- *)
Lemma first_index_some f l : (exists i, In i l /\ f i = true) -> exists i, first_index f l = Some i /\ In i l /\ f i = true.
Proof.
  induction l as [|a l IH]; simpl; [intros (i & [] & _)|]. intros (i & Hi & Fi). destruct (f a) eqn:E.
  - exists a. auto.
  - destruct IH as (j & E1 & E2 & E3); [exists i; destruct Hi as [->|Hi]; [congruence|auto]|]. exists j; auto.
Qed.
Lemma first_index_none f l i : first_index f l = Some i -> In i l /\ f i = true.
Proof.
  induction l as [|a l IH]; simpl; [discriminate|]. destruct (f a) eqn:E.
  - intros H; inversion H; subst; auto.
  - intros H. apply IH in H. tauto.
Qed.

Lemma nv_a_S z i : (i < length z)%nat -> nv_a z (S i) = nv_a z i + nth i z 0.
Proof.
  unfold nv_a. revert i. induction z as [|x z IH]; intros i H; simpl in *; [lia|]. destruct i; simpl; [lra|].
  specialize (IH i ltac:(lia)). simpl in IH. rewrite IH. lra.
Qed.

(* the first true entry of lower_bound is a true entry of upper_bound *)
Lemma lower_upper z rho : asc z -> 0 <= rho -> forall i, (i < length z - 1)%nat -> nv_lower z rho i = true ->
  exists j, (j <= i)%nat /\ nv_lower z rho j = true /\ nv_upper z rho j = true.
Proof.
  intros A Hr. induction i as [|i IH]; intros Hi HL.
  - exists 0%nat. split; [lia|]. split; [exact HL|]. unfold nv_upper, nv_c. apply Rleb_true. unfold nv_a. simpl.
    pose proof (pos_INR (length z)). nra.
  - destruct (nv_lower z rho i) eqn:E.
    + destruct (IH ltac:(lia) eq_refl) as (j & H1 & H2). exists j. split; [lia|exact H2].
    + exists (S i). split; [lia|]. split; [exact HL|]. unfold nv_upper, nv_lower, nv_b, nv_c in *.
      apply Rltb_false in E. apply Rleb_true. rewrite nv_a_S by lia.
      pose proof (asc_nth z A i (S i) ltac:(lia) ltac:(lia)). lra.
Qed.

(* every exit, for rho >= 0: the "no upper bound" exit is never taken, the search never fails, and the demand used as
   denominator is positive *)
Lemma nv_exits k u rho samples : 0 <= rho ->
  (nv_exit_of k u rho samples = Ok ExitNoLower /\
     forall i, (S i < length samples)%nat -> nth (S i) (nsort samples) 0 + nv_a (nsort samples) i <= INR (length samples) * rho) \/
  (exists i, (S i < length samples)%nat /\
     nv_a (nsort samples) i <= INR (length samples) * rho < nv_a (nsort samples) i + nth (S i) (nsort samples) 0 /\
     0 < nth (S i) (nsort samples) 0 /\
     let T := nv_T (nsort samples) k u rho (nth (S i) (nsort samples) 0) in
     nv_exit_of k u rho samples = Ok (if Rleb 0 T then ExitZero T else ExitSAA T)).
Proof.
  intros Hr. unfold nv_exit_of. set (z := nsort samples). assert (HL : length z = length samples) by (apply Permutation_length, nsort_perm).
  pose proof (nsort_asc samples : asc z) as A. rewrite HL. destruct (existsb (nv_lower z rho) (seq 0 (length samples - 1))) eqn:E1; cbn [negb].
  - right. apply existsb_exists in E1 as (i & Hi & Li). apply in_seq in Hi.
    destruct (lower_upper z rho A Hr i ltac:(lia) Li) as (j & Hj & Lj & Uj).
    assert (E2 : existsb (nv_upper z rho) (seq 0 (length samples - 1)) = true)
      by (apply existsb_exists; exists j; split; [apply in_seq; lia|exact Uj]). rewrite E2. cbn [negb].
    destruct (first_index_some (fun i => nv_upper z rho i && nv_lower z rho i)%bool (seq 0 (length samples - 1))) as (m & Em & Im & Fm).
    { exists j. split; [apply in_seq; lia|]. rewrite Uj, Lj. reflexivity. }
    rewrite Em. apply in_seq in Im. apply andb_prop in Fm as [Um Lm]. exists m.
    unfold nv_upper, nv_lower, nv_b, nv_c in Um, Lm. rewrite HL in Um, Lm. apply Rleb_true in Um. apply Rltb_true in Lm.
    split; [lia|]. split; [lra|]. split; [lra|]. cbv zeta. destruct (Rleb 0 (nv_T z k u rho (nth (S m) z 0))); reflexivity.
  - left. split; [reflexivity|]. intros i Hi.
    assert (H : nv_lower z rho i = false).
    { destruct (nv_lower z rho i) eqn:E; [|reflexivity]. exfalso.
      assert (existsb (nv_lower z rho) (seq 0 (length samples - 1)) = true); [|congruence].
      apply existsb_exists. exists i. split; [apply in_seq; lia|exact E]. }
    unfold nv_lower, nv_b in H. rewrite HL in H. apply Rltb_false in H. lra.
Qed.

(* ---------- empirical cost ---------- *)
Lemma empirical_eq k u s t : s <> [] -> empirical k u s t = k * t - u * rmean (map (Rmin t) s).
Proof.
  intros H. unfold empirical, rmean. rewrite !map_length.
  assert (L : 0 < INR (length s)) by (destruct s; [congruence|apply lt_0_INR; simpl; lia]).
  assert (E : rsum (map (nv_cost k u t) s) = INR (length s) * (k * t) - u * rsum (map (Rmin t) s)).
  { unfold nv_cost. rewrite rsum_map_minus, rsum_map_const, rsum_map_scal. reflexivity. }
  rewrite E. field. lra.
Qed.

(* ---------- the worst case from above ---------- *)
Lemma rmin_lip t x y : Rmin t x - Rabs (y - x) <= Rmin t y.
Proof. unfold Rmin. pose proof (Rle_abs (y - x)). pose proof (Rle_abs (- (y - x))). rewrite Rabs_Ropp in *. destruct (Rle_dec t x), (Rle_dec t y); pose proof (Rabs_pos (y - x)); lra. Qed.

Lemma expect_affine a b f l : rsum (map fst l) = 1 -> expect (fun y => a + b * f y) l = a + b * expect f l.
Proof.
  intros H. unfold expect.
  assert (E : rsum (map (fun wx => fst wx * (a + b * f (snd wx))) l) = a * rsum (map fst l) + b * rsum (map (fun wx => fst wx * f (snd wx)) l)).
  { clear H. induction l as [|[w x] l IH]; simpl; [lra|]. rewrite IH. ring. }
  rewrite E, H. ring.
Qed.

Lemma expect_le f g l : Forall (fun wx : R * R => 0 <= fst wx /\ 0 <= snd wx) l -> (forall y, 0 <= y -> f y <= g y) -> expect f l <= expect g l.
Proof.
  intros F H. unfold expect. apply rsum_map_le. intros [w x] Hin. rewrite Forall_forall in F. specialize (F _ Hin). simpl in *.
  apply Rmult_le_compat_l; [tauto|]. apply H; tauto.
Qed.

Lemma law_cost_le k u t x l : 0 <= u -> law_ok l ->
  expect (nv_cost k u t) l <= nv_cost k u t x + u * expect (fun y => Rabs (y - x)) l.
Proof.
  intros Hu [F S]. rewrite <- (expect_affine (nv_cost k u t x) u (fun y => Rabs (y - x)) l S). apply expect_le; [exact F|].
  intros y Hy. unfold nv_cost. pose proof (rmin_lip t x y). nra.
Qed.

Lemma plan_length s rho p : plan_ok s rho p -> length p = length s.
Proof. intros [H _]. rewrite <- H, map_length. reflexivity. Qed.

Lemma rmean_le {A} (f g : A -> R) l : (forall a, In a l -> f a <= g a) -> rmean (map f l) <= rmean (map g l).
Proof.
  intros H. unfold rmean. rewrite !map_length. destruct l as [|a l]; [simpl; lra|].
  apply Rmult_le_compat_r; [|apply rsum_map_le; exact H]. left. apply Rinv_0_lt_compat. apply lt_0_INR. simpl; lia.
Qed.

Lemma rmean_lin {A} (f g : A -> R) c l : rmean (map (fun a => f a + c * g a) l) = rmean (map f l) + c * rmean (map g l).
Proof. unfold rmean. rewrite !map_length, rsum_map_plus, rsum_map_scal. unfold Rdiv. ring. Qed.

Lemma worst_upper k u rho s t : 0 <= u -> worst_le k u rho s t (empirical k u s t + u * rho).
Proof.
  intros Hu p (P1 & P2 & P3). unfold plan_cost, empirical.
  apply Rle_trans with (rmean (map (fun xl => nv_cost k u t (fst xl) + u * expect (fun y => Rabs (y - fst xl)) (snd xl)) p)).
  - apply rmean_le. intros xl Hin. rewrite Forall_forall in P2. apply law_cost_le; auto.
  - rewrite rmean_lin. rewrite <- (map_map fst (nv_cost k u t) p). rewrite P1. nra.
Qed.

(* ---------- an adversary that sends the cheapest demands to zero ---------- *)
Definition stay (x : R) : R * law := (x, [(1, x)]).
Fixpoint greedy (B : R) (z : list R) : plan :=
  match z with
  | [] => []
  | x :: r => if Rle_dec x B then (x, [(1, 0)]) :: greedy (B - x) r
              else (x, [(B / x, 0); (1 - B / x, x)]) :: map stay r
  end.

Definition moved (p : plan) : R := rsum (map (fun xl => expect (fun y => Rabs (y - fst xl)) (snd xl)) p).
Definition left_sales (u t : R) (p : plan) : R := rsum (map (fun xl => expect (fun y => u * Rmin t y) (snd xl)) p).

Lemma greedy_fst z : forall B, map fst (greedy B z) = z.
Proof.
  induction z as [|x z IH]; intros B; simpl; [reflexivity|]. destruct (Rle_dec x B); simpl; [rewrite IH; reflexivity|].
  rewrite map_map. simpl. rewrite map_id. reflexivity.
Qed.

Lemma stay_ok x : 0 <= x -> law_ok (snd (stay x)).
Proof. intros H. split; [repeat (apply Forall_cons; [simpl; lra|]); apply Forall_nil|simpl; lra]. Qed.

Lemma greedy_ok z : Forall (fun x => 0 <= x) z -> forall B, 0 <= B -> Forall (fun xl => law_ok (snd xl)) (greedy B z).
Proof.
  induction 1 as [|x z Hx Hz IH]; intros B HB; simpl; [constructor|]. destruct (Rle_dec x B) as [L|L].
  - constructor; [split; [repeat (apply Forall_cons; [simpl; lra|]); apply Forall_nil|simpl; lra]|]. apply IH. lra.
  - assert (Hx0 : 0 < x) by lra. assert (0 <= B / x <= 1).
    { split; [apply Rmult_le_pos; [lra|left; apply Rinv_0_lt_compat; lra]|]. apply Rmult_le_reg_r with x; [lra|]. unfold Rdiv. rewrite Rmult_assoc, Rinv_l by lra. lra. }
    constructor; [split; [repeat (apply Forall_cons; [simpl; lra|]); apply Forall_nil|simpl; lra]|].
    apply Forall_map. eapply Forall_impl; [|exact Hz]. intros y Hy. apply stay_ok; exact Hy.
Qed.

Lemma moved_stay r : moved (map stay r) = 0.
Proof.
  unfold moved. induction r as [|y r IH]; [reflexivity|]. cbn [map rsum]. rewrite IH. unfold expect. simpl.
  replace (y - y) with 0 by ring. rewrite Rabs_R0. lra.
Qed.

Lemma greedy_moved z : Forall (fun x => 0 <= x) z -> forall B, 0 <= B -> moved (greedy B z) <= B.
Proof.
  induction 1 as [|x z Hx Hz IH]; intros B HB; [unfold moved; simpl; lra|]. cbn [greedy]. destruct (Rle_dec x B) as [L|L].
  - specialize (IH (B - x) ltac:(lra)). unfold moved in *. cbn [map rsum fst snd]. unfold expect at 1. simpl.
    replace (0 - x) with (- x) by ring. rewrite Rabs_Ropp, (Rabs_pos_eq x Hx). lra.
  - assert (Hx0 : 0 < x) by lra. pose proof (moved_stay z) as MS. unfold moved in *. cbn [map rsum fst snd]. rewrite MS.
    unfold expect. simpl. replace (0 - x) with (- x) by ring. replace (x - x) with 0 by ring.
    rewrite Rabs_Ropp, Rabs_R0, (Rabs_pos_eq x Hx). apply Req_le. field. lra.
Qed.

Lemma left_stay u t r : left_sales u t (map stay r) = rsum (map (fun y => u * Rmin t y) r).
Proof. unfold left_sales. induction r as [|y r IH]; [reflexivity|]. cbn [map rsum]. rewrite IH. unfold expect. simpl. ring. Qed.

Lemma ratio_mono t x y : 0 <= t -> 0 <= x <= y -> Rmin t y * x <= Rmin t x * y.
Proof. intros Ht Hx. unfold Rmin. destruct (Rle_dec t y), (Rle_dec t x); nra. Qed.

(* what the greedy adversary leaves: either nothing, or the Lagrangian value at the price lam of the critical demand *)
Lemma greedy_value u t : 0 <= u -> 0 <= t -> forall z, asc z -> Forall (fun x => 0 <= x) z -> forall B, 0 <= B ->
  left_sales u t (greedy B z) = 0 \/
  exists lam zc, In zc z /\ 0 < zc /\ lam * zc = u * Rmin t zc /\
    left_sales u t (greedy B z) <= rsum (map (fun x => Rmin (lam * x) (u * Rmin t x)) z) - lam * B.
Proof.
  intros Hu Ht. induction 1 as [|x z A IH F]; intros Hz B HB; [left; reflexivity|].
  inversion Hz as [|? ? Hx Hz']; subst. cbn [greedy]. destruct (Rle_dec x B) as [L|L].
  - destruct (IH Hz' (B - x) ltac:(lra)) as [E|(lam & zc & I & P & E & LE)].
    + left. unfold left_sales in *. cbn [map rsum snd]. rewrite E. unfold expect. simpl. rewrite Rmin_right by exact Ht. ring.
    + right. exists lam, zc. split; [right; exact I|]. split; [exact P|]. split; [exact E|].
      unfold left_sales in *. cbn [map rsum snd]. unfold expect at 1. simpl. rewrite (Rmin_right t 0) by exact Ht.
      assert (x <= zc) by (rewrite Forall_forall in F; auto).
      assert (HR : lam * x <= u * Rmin t x).
      { apply Rmult_le_reg_r with zc; [exact P|].
        replace (lam * x * zc) with (u * (Rmin t zc * x)) by (rewrite <- Rmult_assoc, <- E; ring).
        rewrite Rmult_assoc. apply Rmult_le_compat_l; [exact Hu|]. apply ratio_mono; lra. }
      rewrite (Rmin_left (lam * x)) by exact HR. lra.
  - assert (Hx0 : 0 < x) by lra. right. exists (u * Rmin t x / x), x. split; [left; reflexivity|]. split; [exact Hx0|].
    split; [field; lra|]. unfold left_sales. cbn [map rsum snd]. fold (left_sales u t (map stay z)). rewrite left_stay.
    unfold expect. simpl. rewrite (Rmin_right t 0) by exact Ht.
    assert (E1 : Rmin (u * Rmin t x / x * x) (u * Rmin t x) = u * Rmin t x).
    { replace (u * Rmin t x / x * x) with (u * Rmin t x) by (field; lra). apply Rmin_left; lra. }
    rewrite E1.
    assert (E2 : rsum (map (fun y => u * Rmin t y) z) <= rsum (map (fun y => Rmin (u * Rmin t x / x * y) (u * Rmin t y)) z)).
    { apply rsum_map_le. intros y Hy. rewrite Forall_forall in F. specialize (F y Hy). rewrite (Rmin_right (u * Rmin t x / x * y)); [lra|].
      apply Rmult_le_reg_r with x; [exact Hx0|]. replace (u * Rmin t x / x * y * x) with (u * (Rmin t x * y)) by (field; lra).
      replace (u * Rmin t y * x) with (u * (Rmin t y * x)) by ring. apply Rmult_le_compat_l; [exact Hu|]. apply ratio_mono; lra. }
    replace (B / x * (u * 0) + ((1 - B / x) * (u * Rmin t x) + 0)) with (u * Rmin t x - u * Rmin t x / x * B) by (field; lra). lra.
Qed.

Lemma plan_cost_left k u t s rho p : s <> [] -> plan_ok s rho p -> plan_cost k u t p = k * t - left_sales u t p / INR (length s).
Proof.
  intros Hs H. pose proof (plan_length s rho p H) as L. destruct H as (P1 & P2 & _). unfold plan_cost, left_sales, rmean. rewrite map_length, L.
  assert (N : 0 < INR (length s)) by (destruct s; [congruence|apply lt_0_INR; simpl; lia]).
  assert (E : rsum (map (fun xl => expect (nv_cost k u t) (snd xl)) p)
            = INR (length p) * (k * t) - rsum (map (fun xl => expect (fun y => u * Rmin t y) (snd xl)) p)).
  { clear P1 L. induction P2 as [|xl p [_ W] _ IH]; [simpl; ring|]. cbn [map rsum length]. rewrite IH, S_INR.
    assert (E : expect (nv_cost k u t) (snd xl) = k * t - expect (fun y => u * Rmin t y) (snd xl)).
    { pose proof (expect_affine (k * t) (-1) (fun y => u * Rmin t y) (snd xl) W) as X.
      replace (k * t - expect (fun y => u * Rmin t y) (snd xl)) with (k * t + -1 * expect (fun y => u * Rmin t y) (snd xl)) by ring.
      rewrite <- X. unfold expect. f_equal. apply map_ext. intros [w y]. unfold nv_cost. simpl. ring. }
    rewrite E. ring. }
  rewrite E, L. field. lra.
Qed.

Lemma left_perm u t p q : Permutation p q -> left_sales u t p = left_sales u t q.
Proof. intros H. unfold left_sales. apply rsum_perm, Permutation_map, H. Qed.

Lemma greedy_plan u t rho s : 0 <= u -> 0 <= t -> 0 <= rho -> s <> [] -> Forall (fun x => 0 <= x) s ->
  exists p, plan_ok s rho p /\
   (left_sales u t p = 0 \/
    exists lam zc, In zc s /\ 0 < zc /\ lam * zc = u * Rmin t zc /\
      left_sales u t p <= rsum (map (fun x => Rmin (lam * x) (u * Rmin t x)) s) - lam * (INR (length s) * rho)).
Proof.
  intros Hu Ht Hr Hs Hp. set (B := INR (length s) * rho). set (z := nsort s).
  assert (N : 0 < INR (length s)) by (destruct s; [congruence|apply lt_0_INR; simpl; lia]).
  assert (HB : 0 <= B) by (unfold B; nra).
  pose proof (nsort_perm s : Permutation z s) as PZ.
  assert (Hz : Forall (fun x => 0 <= x) z) by (rewrite Forall_forall in *; intros x Hx; apply Hp; eapply Permutation_in; [exact PZ|exact Hx]).
  assert (PP : Permutation s (map fst (greedy B z))) by (rewrite greedy_fst; symmetry; exact PZ).
  apply Permutation_map_inv in PP as (p & E & Q). exists p. split.
  - split; [symmetry; exact E|]. split.
    + pose proof (greedy_ok z Hz B HB) as G. rewrite Forall_forall in *. intros xl Hx. apply G. eapply Permutation_in; [symmetry; exact Q|exact Hx].
    + unfold rmean. rewrite map_length, <- (map_length fst p), <- E.
      assert (M : moved (greedy B z) = moved p) by (unfold moved; apply rsum_perm, Permutation_map, Q).
      pose proof (greedy_moved z Hz B HB) as GM. rewrite M in GM. unfold moved in GM.
      apply Rmult_le_reg_r with (INR (length s)); [exact N|]. unfold Rdiv. rewrite Rmult_assoc, Rinv_l, Rmult_1_r by lra. unfold B in GM. lra.
  - destruct (greedy_value u t Hu Ht z (nsort_asc s) Hz B HB) as [E0|(lam & zc & I & P & E1 & LE)].
    + left. rewrite <- (left_perm u t _ _ Q). exact E0.
    + right. exists lam, zc. split; [eapply Permutation_in; [exact PZ|exact I]|]. split; [exact P|]. split; [exact E1|].
      rewrite <- (left_perm u t _ _ Q).
      rewrite <- (rsum_perm _ _ (Permutation_map (fun x => Rmin (lam * x) (u * Rmin t x)) PZ)). exact LE.
Qed.

Lemma Rmin_scal a x y : 0 < a -> Rmin (a * x) (a * y) = a * Rmin x y.
Proof. intros H. unfold Rmin. destruct (Rle_dec (a * x) (a * y)), (Rle_dec x y); nra. Qed.

(* from below: every order t has an adversary that costs it k t, or a positive fraction of V *)
Lemma worst_lower k u rho s V : 0 <= k -> 0 < u -> 0 <= rho -> s <> [] -> Forall (fun x => 0 <= x) s ->
  (forall tau, 0 <= tau -> V <= empirical k u s tau + u * rho) ->
  forall t, 0 < t -> exists p, plan_ok s rho p /\ (k * t <= plan_cost k u t p \/ exists mu, 0 < mu <= 1 /\ mu * V <= plan_cost k u t p).
Proof.
  intros Hk Hu Hr Hs Hp HV t Ht.
  assert (N : 0 < INR (length s)) by (destruct s; [congruence|apply lt_0_INR; simpl; lia]).
  destruct (greedy_plan u t rho s ltac:(lra) ltac:(lra) Hr Hs Hp) as (p & Pok & D). exists p. split; [exact Pok|].
  rewrite (plan_cost_left k u t s rho p Hs Pok). destruct D as [E|(lam & zc & I & P & E & LE)].
  - left. rewrite E. unfold Rdiv. lra.
  - right.
    assert (M0 : 0 < Rmin t zc) by (unfold Rmin; destruct (Rle_dec t zc); lra).
    assert (M1 : Rmin t zc <= zc) by apply Rmin_r.
    assert (L0 : 0 < lam) by (assert (0 < lam * zc) by nra; nra).
    assert (L1 : lam <= u) by (apply Rmult_le_reg_r with zc; [exact P|]; nra).
    exists (lam / u). split.
    { split; [apply Rdiv_lt_0_compat; lra|]. apply Rmult_le_reg_r with u; [lra|]. unfold Rdiv. rewrite Rmult_assoc, Rinv_l by lra. lra. }
    set (tau := u * t / lam). assert (T0 : 0 <= tau) by (unfold tau; left; apply Rdiv_lt_0_compat; nra).
    specialize (HV tau T0). rewrite empirical_eq in HV by exact Hs.
    assert (X : rsum (map (fun x => Rmin (lam * x) (u * Rmin t x)) s) <= lam * rsum (map (Rmin tau) s)).
    { rewrite <- rsum_map_scal. apply rsum_map_le. intros x _. rewrite <- (Rmin_scal lam) by exact L0.
      replace (lam * tau) with (u * t) by (unfold tau; field; lra). pose proof (Rmin_l t x).
      pose proof (Rmin_l (lam * x) (u * Rmin t x)). pose proof (Rmin_r (lam * x) (u * Rmin t x)).
      apply Rmin_glb; nra. }
    unfold rmean in HV. rewrite map_length in HV.
    apply Rle_trans with (k * t - (lam * rsum (map (Rmin tau) s) - lam * (INR (length s) * rho)) / INR (length s)).
    + apply Rle_trans with (lam / u * (k * tau - u * (rsum (map (Rmin tau) s) / INR (length s)) + u * rho)).
      * apply Rmult_le_compat_l; [left; apply Rdiv_lt_0_compat; lra|exact HV].
      * right. unfold tau. field. repeat split; lra.
    + apply Rplus_le_compat_l, Ropp_le_contravar. apply Rmult_le_compat_r; [left; apply Rinv_0_lt_compat; exact N|]. lra.
Qed.

(* ---------- plans at order 0 ---------- *)
Lemma law_cost_zero k u l : law_ok l -> expect (nv_cost k u 0) l = 0.
Proof.
  intros [F _]. unfold expect. induction F as [|[w y] l [_ Hy] _ IH]; simpl; [reflexivity|]. rewrite IH. unfold nv_cost. simpl in Hy.
  rewrite Rmin_left by exact Hy. ring.
Qed.

Lemma plan_cost_zero k u s rho p : plan_ok s rho p -> plan_cost k u 0 p = 0.
Proof.
  intros (_ & F & _). unfold plan_cost, rmean.
  assert (E : rsum (map (fun xl => expect (nv_cost k u 0) (snd xl)) p) = 0).
  { induction F as [|xl p H _ IH]; simpl; [reflexivity|]. rewrite IH, (law_cost_zero k u _ H). ring. }
  rewrite E. unfold Rdiv. ring.
Qed.

Lemma stay_plan s rho : 0 <= rho -> Forall (fun x => 0 <= x) s -> plan_ok s rho (map stay s).
Proof.
  intros Hr F. split; [rewrite map_map; simpl; apply map_id|]. split.
  - apply Forall_map. eapply Forall_impl; [|exact F]. intros x Hx. apply stay_ok, Hx.
  - unfold rmean. pose proof (moved_stay s) as M. unfold moved in M. rewrite M. unfold Rdiv. lra.
Qed.

(* ---------- the two candidate orders ---------- *)
Section Optimal.
Variables (k u rho : R) (s : list R) (ts : R).
Hypothesis Hk : 0 <= k.
Hypothesis Hu : 0 < u.
Hypothesis Hr : 0 <= rho.
Hypothesis Hs : s <> [].
Hypothesis Hp : Forall (fun x => 0 <= x) s.
Hypothesis Hts : minimises (empirical k u s) ts.
Let V := empirical k u s ts + u * rho.

Lemma V_le tau : 0 <= tau -> V <= empirical k u s tau + u * rho.
Proof. intros H. destruct Hts as [_ M]. specialize (M tau H). unfold V. lra. Qed.

Lemma worst_ge t c : 0 <= t -> worst_le k u rho s t c -> exists mu, 0 <= mu <= 1 /\ mu * V <= c.
Proof.
  intros Ht W. destruct Ht as [Ht|<-].
  - destruct (worst_lower k u rho s V Hk Hu Hr Hs Hp V_le t Ht) as (p & Pok & [D|(mu & M & D)]); specialize (W p Pok).
    + exists 0. split; [lra|]. nra.
    + exists mu. split; [lra|]. lra.
  - specialize (W _ (stay_plan s rho Hr Hp)). rewrite (plan_cost_zero k u s rho _ (stay_plan s rho Hr Hp)) in W. exists 0. split; lra.
Qed.

Lemma saa_optimal : V <= 0 -> robustly_optimal k u rho s ts.
Proof.
  intros HV. split; [apply Hts|]. intros t c Ht W p Pok. pose proof (worst_upper k u rho s ts ltac:(lra) p Pok) as U. fold V in U.
  destruct (worst_ge t c Ht W) as (mu & M & D). nra.
Qed.

Lemma zero_optimal : 0 <= V -> robustly_optimal k u rho s 0.
Proof.
  intros HV. split; [lra|]. intros t c Ht W p Pok. rewrite (plan_cost_zero k u s rho p Pok).
  destruct (worst_ge t c Ht W) as (mu & M & D). nra.
Qed.

Lemma saa_not_optimal : 0 < V -> 0 < k -> 0 < ts -> ~ robustly_optimal k u rho s ts.
Proof.
  intros HV Hk' Ht [_ O]. assert (W : worst_le k u rho s 0 0) by (intros p Pok; rewrite (plan_cost_zero k u s rho p Pok); lra).
  specialize (O 0 0 ltac:(lra) W).
  destruct (worst_lower k u rho s V Hk Hu Hr Hs Hp V_le ts Ht) as (p & Pok & [D|(mu & M & D)]); specialize (O p Pok); nra.
Qed.

Lemma zero_not_optimal : V < 0 -> ~ robustly_optimal k u rho s 0.
Proof.
  intros HV [_ O]. specialize (O ts V (proj1 Hts)).
  specialize (O (worst_upper k u rho s ts ltac:(lra)) _ (stay_plan s rho Hr Hp)).
  rewrite (plan_cost_zero k u s rho _ (stay_plan s rho Hr Hp)) in O. lra.
Qed.
End Optimal.

(* ---------- T ---------- *)
Lemma nv_T_empirical k u rho s zi : s <> [] -> 0 < zi -> nv_T (nsort s) k u rho zi * zi = empirical k u s zi + u * rho.
Proof.
  intros Hs Hz. rewrite empirical_eq by exact Hs. unfold nv_T.
  rewrite (rmean_perm _ _ (Permutation_map (fun x => Rmin (x / zi) 1) (nsort_perm s))).
  assert (E : rmean (map (Rmin zi) s) = zi * rmean (map (fun x => Rmin (x / zi) 1) s)).
  { unfold rmean. rewrite !map_length.
    assert (E : rsum (map (Rmin zi) s) = zi * rsum (map (fun x => Rmin (x / zi) 1) s)).
    { rewrite <- rsum_map_scal. f_equal. apply map_ext. intros x. rewrite <- (Rmin_scal zi) by exact Hz.
      replace (zi * (x / zi)) with x by (field; lra). rewrite Rmult_1_r. apply Rmin_comm. }
    rewrite E. unfold Rdiv. ring. }
  rewrite E. field. lra.
Qed.

(* ---------- which exit, and is its answer optimal ---------- *)
Lemma sorted_prefix_sum z : Forall (fun x => 0 <= x) z -> forall i, (S i < length z)%nat -> nv_a z i + nth (S i) z 0 <= rsum z.
Proof.
  unfold nv_a. induction 1 as [|x z Hx Hz IH]; intros i Hi; [simpl in Hi; lia|]. simpl in Hi. destruct i as [|i].
  - simpl. destruct Hz as [|y z Hy Hz]; [simpl in Hi; lia|]. simpl. pose proof (rsum_nonneg z Hz). lra.
  - specialize (IH i ltac:(lia)). cbn [firstn rsum nth] in *. lra.
Qed.

Lemma large_rho_exit k u rho s : 0 <= rho -> s <> [] -> Forall (fun x => 0 <= x) s -> rmean s <= rho -> nv_exit_of k u rho s = Ok ExitNoLower.
Proof.
  intros Hr Hs Hp Hm. destruct (nv_exits k u rho s Hr) as [[E _]|(i & Hi & [_ H2] & _)]; [exact E|]. exfalso.
  assert (N : 0 < INR (length s)) by (destruct s; [congruence|apply lt_0_INR; simpl; lia]).
  pose proof (nsort_perm s) as PZ.
  assert (Hz : Forall (fun x => 0 <= x) (nsort s)) by (rewrite Forall_forall in *; intros x Hx; apply Hp; eapply Permutation_in; [exact PZ|exact Hx]).
  pose proof (sorted_prefix_sum _ Hz i ltac:(rewrite (Permutation_length PZ); exact Hi)) as L. rewrite (rsum_perm _ _ PZ) in L.
  unfold rmean in Hm. apply (Rmult_le_compat_r (INR (length s))) in Hm; [|lra]. unfold Rdiv in Hm.
  rewrite Rmult_assoc, Rinv_l, Rmult_1_r in Hm by lra. lra.
Qed.

Lemma empirical_ge_mean k u s t : 0 <= u -> s <> [] -> k * t - u * rmean s <= empirical k u s t.
Proof.
  intros Hu Hs. rewrite empirical_eq by exact Hs.
  assert (rmean (map (Rmin t) s) <= rmean s); [|nra].
  rewrite <- (map_id s) at 2. apply rmean_le. intros x _. apply Rmin_r.
Qed.

Lemma large_rho_answer saa k u rho s : 0 < k -> 0 < u -> 0 <= rho -> s <> [] -> Forall (fun x => 0 <= x) s ->
  minimises (empirical k u s) saa -> 0 < saa -> rmean s <= rho ->
  nv_solver saa k u rho s = Ok (saa, 0) /\ ~ robustly_optimal k u rho s saa /\ robustly_optimal k u rho s 0.
Proof.
  intros Hk Hu Hr Hs Hp Hm H0 Hl.
  assert (HV : 0 < empirical k u s saa + u * rho) by (pose proof (empirical_ge_mean k u s saa ltac:(lra) Hs); nra).
  split; [unfold nv_solver; rewrite (large_rho_exit k u rho s Hr Hs Hp Hl); reflexivity|]. split.
  - apply saa_not_optimal; auto; lra.
  - apply (zero_optimal k u rho s saa); auto; lra.
Qed.

Lemma saa_exit_negative k u rho s T ts : 0 <= rho -> s <> [] -> minimises (empirical k u s) ts ->
  nv_exit_of k u rho s = Ok (ExitSAA T) -> empirical k u s ts + u * rho < 0.
Proof.
  intros Hr Hs [_ M] E. destruct (nv_exits k u rho s Hr) as [[E1 _]|(i & Hi & _ & Hz & E1)]; [congruence|]. cbv zeta in E1.
  rewrite E in E1. destruct (Rleb 0 _) eqn:D; [discriminate|]. apply Rleb_false in D.
  pose proof (nv_T_empirical k u rho s _ Hs Hz) as X. specialize (M (nth (S i) (nsort s) 0) ltac:(lra)). nra.
Qed.

Lemma saa_exit_optimal saa k u rho s T : 0 <= k -> 0 < u -> 0 <= rho -> s <> [] -> Forall (fun x => 0 <= x) s ->
  minimises (empirical k u s) saa -> nv_exit_of k u rho s = Ok (ExitSAA T) ->
  nv_solver saa k u rho s = Ok (saa, 0) /\ robustly_optimal k u rho s saa.
Proof.
  intros Hk Hu Hr Hs Hp Hm E. split; [unfold nv_solver; rewrite E; reflexivity|].
  apply saa_optimal; auto. pose proof (saa_exit_negative k u rho s T saa Hr Hs Hm E). lra.
Qed.

(* exactly when each answer is optimal *)
Lemma zero_iff saa k u rho s : 0 <= k -> 0 < u -> 0 <= rho -> s <> [] -> Forall (fun x => 0 <= x) s ->
  minimises (empirical k u s) saa -> (robustly_optimal k u rho s 0 <-> 0 <= empirical k u s saa + u * rho).
Proof.
  intros Hk Hu Hr Hs Hp Hm. split; [|apply (zero_optimal k u rho s saa); auto]. intros O.
  destruct (Rle_or_lt 0 (empirical k u s saa + u * rho)) as [L|L]; [exact L|]. exfalso.
  exact (zero_not_optimal k u rho s saa Hu Hr Hp Hm L O).
Qed.

Lemma saa_iff saa k u rho s : 0 < k -> 0 < u -> 0 <= rho -> s <> [] -> Forall (fun x => 0 <= x) s ->
  minimises (empirical k u s) saa -> 0 < saa -> (robustly_optimal k u rho s saa <-> empirical k u s saa + u * rho <= 0).
Proof.
  intros Hk Hu Hr Hs Hp Hm H0. split; [|apply saa_optimal; auto; lra]. intros O.
  destruct (Rle_or_lt (empirical k u s saa + u * rho) 0) as [L|L]; [exact L|]. exfalso.
  exact (saa_not_optimal k u rho s saa ltac:(lra) Hu Hr Hs Hp Hm L Hk H0 O).
Qed.

Lemma solver_total saa k u rho s : 0 <= rho -> exists c, nv_solver saa k u rho s = Ok (c, 0) /\ (c = saa \/ c = 0).
Proof.
  intros Hr. unfold nv_solver. destruct (nv_exits k u rho s Hr) as [[E _]|(i & _ & _ & _ & E)]; cbv zeta in E; rewrite E.
  - exists saa. simpl. auto.
  - destruct (Rleb 0 _); simpl; [exists 0|exists saa]; auto.
Qed.

(* ---------- the reported multiplier ---------- *)
Lemma empirical_zero k u s : Forall (fun x => 0 <= x) s -> empirical k u s 0 = 0.
Proof.
  intros H. unfold empirical, rmean. assert (E : rsum (map (nv_cost k u 0) s) = 0).
  { induction H as [|x s Hx _ IH]; simpl; [reflexivity|]. rewrite IH. unfold nv_cost. rewrite Rmin_left by exact Hx. ring. }
  rewrite E. unfold Rdiv. ring.
Qed.

Lemma fit_certificate saa k u rho s coef dual : 0 < u -> 0 <= rho -> Forall (fun x => 0 <= x) s ->
  nv_fit saa k u rho s = Ok (coef, dual) -> worst_le k u rho s coef (empirical k u s coef + dual * rho).
Proof.
  intros Hu Hr Hp E. unfold nv_fit in E. destruct (solver_total saa k u rho s Hr) as (c & E1 & _). rewrite E1 in E. simpl in E.
  inversion E; subst coef dual. destruct (Reqb c 0) eqn:D.
  - apply Reqb_true in D. subst c. intros p Pok. rewrite (plan_cost_zero k u s rho p Pok), (empirical_zero k u s Hp). lra.
  - apply worst_upper. lra.
Qed.

Lemma fit_exact saa k u rho s coef dual T : 0 <= k -> 0 < u -> 0 <= rho -> s <> [] -> Forall (fun x => 0 <= x) s ->
  minimises (empirical k u s) saa -> (nv_exit_of k u rho s = Ok (ExitSAA T) \/ nv_exit_of k u rho s = Ok (ExitZero T)) ->
  nv_fit saa k u rho s = Ok (coef, dual) -> forall c, worst_le k u rho s coef c -> empirical k u s coef + dual * rho <= c.
Proof.
  intros Hk Hu Hr Hs Hp Hm [E|E] F c W; unfold nv_fit, nv_solver in F; rewrite E in F; simpl in F; inversion F; subst coef dual.
  - destruct (worst_ge k u rho s saa Hk Hu Hr Hs Hp Hm saa c (proj1 Hm) W) as (mu & M & D).
    pose proof (saa_exit_negative k u rho s T saa Hr Hs Hm E) as N. destruct (Reqb saa 0) eqn:Z; [|nra].
    apply Reqb_true in Z. subst saa. rewrite (empirical_zero k u s Hp) in *. nra.
  - specialize (W _ (stay_plan s rho Hr Hp)). rewrite (plan_cost_zero k u s rho _ (stay_plan s rho Hr Hp)) in W.
    rewrite (empirical_zero k u s Hp). destruct (Reqb 0 0) eqn:Z; [lra|]. apply Reqb_false in Z. congruence.
Qed.

(* ---------- the linear programmes ---------- *)
Lemma F2_rsum_le (l m : list R) : Forall2 Rle l m -> rsum l <= rsum m.
Proof. induction 1; simpl; lra. Qed.

Lemma saa2_above k u z beta theta : 0 <= u -> z <> [] -> saa2_feasible z beta theta ->
  0 <= theta /\ empirical k u z theta <= saa2_objective k u beta theta.
Proof.
  intros Hu Hz (H0 & L & F). split; [exact H0|]. rewrite empirical_eq by exact Hz. unfold saa2_objective, rmean. rewrite map_length, L.
  assert (N : 0 < INR (length z)) by (destruct z; [congruence|apply lt_0_INR; simpl; lia]).
  assert (rsum beta <= rsum (map (Rmin theta) z)).
  { apply F2_rsum_le. clear L Hz N. induction F as [|b x beta z [B1 B2] _ IH]; simpl; constructor; auto. apply Rmin_glb; lra. }
  replace (u * 1 / INR (length z) * rsum beta) with (u * (rsum beta / INR (length z))) by (field; lra).
  assert (rsum beta / INR (length z) <= rsum (map (Rmin theta) z) / INR (length z)); [|nra].
  apply Rmult_le_compat_r; [left; apply Rinv_0_lt_compat; lra|lra].
Qed.

Lemma saa2_attained k u z theta : z <> [] -> 0 <= theta ->
  saa2_feasible z (map (Rmin theta) z) theta /\ saa2_objective k u (map (Rmin theta) z) theta = empirical k u z theta.
Proof.
  intros Hz H0. assert (N : 0 < INR (length z)) by (destruct z; [congruence|apply lt_0_INR; simpl; lia]). split.
  - split; [exact H0|]. split; [apply map_length|]. clear. induction z; simpl; constructor; auto. split; [apply Rmin_l|apply Rmin_r].
  - rewrite empirical_eq by exact Hz. unfold saa2_objective, rmean. rewrite map_length. field. lra.
Qed.

Lemma saa2_iff k u z theta : 0 <= u -> z <> [] -> (saa2_optimal k u z theta <-> minimises (empirical k u z) theta).
Proof.
  intros Hu Hz. split.
  - intros (beta & F & M). destruct (saa2_above k u z beta theta Hu Hz F) as [H0 A]. split; [exact H0|]. intros t Ht.
    destruct (saa2_attained k u z t Hz Ht) as [F' E]. specialize (M _ _ F'). lra.
  - intros [H0 M]. destruct (saa2_attained k u z theta Hz H0) as [F E]. exists (map (Rmin theta) z). split; [exact F|].
    intros beta' theta' F'. destruct (saa2_above k u z beta' theta' Hu Hz F') as [H0' A]. specialize (M theta' H0'). lra.
Qed.

(* some demand, or 0, minimises *)
Lemma classic_in (l : list R) t : (exists a, In a l /\ a <= t) \/ ~ (exists a, In a l /\ a <= t).
Proof.
  induction l as [|x l IH]; [right; intros (a & [] & _)|]. destruct (Rle_or_lt x t) as [C|C]; [left; exists x; split; [left; reflexivity|exact C]|].
  destruct IH as [(a & I & L)|N]; [left; exists a; split; [right; exact I|exact L]|]. right. intros (a & [<-|I] & L); [lra|]. apply N. exists a. auto.
Qed.

Lemma below_exists (l : list R) t : (exists a, In a l /\ a <= t) -> exists a, In a l /\ a <= t /\ forall b, In b l -> b <= t -> b <= a.
Proof.
  induction l as [|x l IH]; intros (a & I & La); [destruct I|].
  destruct (Rle_or_lt x t) as [Hx|Hx].
  - destruct (classic_in l t) as [E|E].
    + destruct (IH E) as (m & Im & Lm & Mm). destruct (Rle_or_lt x m) as [C|C].
      * exists m. split; [right; exact Im|]. split; [exact Lm|]. intros b [<-|Ib] Lb; auto.
      * exists x. split; [left; reflexivity|]. split; [exact Hx|]. intros b [<-|Ib] Lb; [lra|]. specialize (Mm b Ib Lb). lra.
    + exists x. split; [left; reflexivity|]. split; [exact Hx|]. intros b [<-|Ib] Lb; [lra|]. exfalso. exact (E (ex_intro _ b (conj Ib Lb))).
  - destruct I as [<-|I]; [lra|]. destruct (IH (ex_intro _ a (conj I La))) as (m & Im & Lm & Mm). exists m. split; [right; exact Im|].
    split; [exact Lm|]. intros b [<-|Ib] Lb; [lra|auto].
Qed.

Lemma argmin_in (f : R -> R) (l : list R) : l <> [] -> exists a, In a l /\ forall b, In b l -> f a <= f b.
Proof.
  induction l as [|x l IH]; [congruence|]. intros _. destruct l as [|y l].
  - exists x. split; [left; reflexivity|]. intros b [<-|[]]. lra.
  - destruct IH as (m & Im & Mm); [congruence|]. destruct (Rle_or_lt (f x) (f m)) as [C|C].
    + exists x. split; [left; reflexivity|]. intros b [<-|Ib]; [lra|]. specialize (Mm b Ib). lra.
    + exists m. split; [right; exact Im|]. intros b [<-|Ib]; [lra|auto].
Qed.

(* between two consecutive breakpoints the cost is affine *)
Lemma empirical_segment k u z a b t mu : z <> [] -> 0 <= mu <= 1 -> a <= b -> t = (1 - mu) * a + mu * b ->
  (forall x, In x z -> x <= a \/ b <= x) -> empirical k u z t = (1 - mu) * empirical k u z a + mu * empirical k u z b.
Proof.
  intros Hz Hm Hab -> G. rewrite !empirical_eq by exact Hz. set (t := (1 - mu) * a + mu * b).
  assert (E : rmean (map (Rmin t) z) = (1 - mu) * rmean (map (Rmin a) z) + mu * rmean (map (Rmin b) z)).
  { unfold rmean. rewrite !map_length.
    assert (E : rsum (map (Rmin t) z) = (1 - mu) * rsum (map (Rmin a) z) + mu * rsum (map (Rmin b) z)).
    { rewrite <- !rsum_map_scal, <- rsum_map_plus. f_equal. apply map_ext_in. intros x Hx.
      assert (T : a <= t <= b) by (unfold t; nra). destruct (G x Hx).
      - rewrite !Rmin_right by lra. ring.
      - rewrite !Rmin_left by lra. reflexivity. }
    rewrite E. unfold Rdiv. ring. }
  rewrite E. unfold t. ring.
Qed.

Lemma empirical_beyond k u z a t : 0 <= k -> z <> [] -> a <= t -> (forall x, In x z -> x <= a) -> empirical k u z a <= empirical k u z t.
Proof.
  intros Hk Hz Hat G. rewrite !empirical_eq by exact Hz.
  assert (E : map (Rmin t) z = map (Rmin a) z) by (apply map_ext_in; intros x Hx; specialize (G x Hx); rewrite !Rmin_right by lra; reflexivity).
  rewrite E. nra.
Qed.

Lemma above_exists (l : list R) t : (exists b, In b l /\ t <= b) -> exists b, In b l /\ t <= b /\ forall c, In c l -> t <= c -> b <= c.
Proof.
  intros (b & I & L). destruct (below_exists (map Ropp l) (- t)) as (a & Ia & La & Ma).
  - exists (- b). split; [apply in_map; exact I|lra].
  - apply in_map_iff in Ia as (b' & <- & Ib). exists b'. split; [exact Ib|]. split; [lra|]. intros c Ic Lc.
    specialize (Ma (- c) ltac:(apply in_map; exact Ic) ltac:(lra)). lra.
Qed.

Lemma breakpoint_below k u z t : 0 <= k -> z <> [] -> 0 <= t -> exists a, In a (0 :: z) /\ 0 <= a /\ empirical k u z a <= empirical k u z t.
Proof.
  intros Hk Hz Ht. destruct (below_exists (0 :: z) t) as (a & Ia & La & Ma); [exists 0; split; [left; reflexivity|exact Ht]|].
  assert (A0 : 0 <= a) by (apply Ma; [left; reflexivity|exact Ht]).
  destruct (classic_in (map Ropp z) (- t)) as [E|E].
  - assert (Ex : exists b, In b z /\ t <= b).
    { destruct E as (b & I & L). apply in_map_iff in I as (b' & <- & Ib). exists b'. split; [exact Ib|lra]. }
    destruct (above_exists z t Ex) as (b & Ib & Lb & Mb).
    assert (G : forall x, In x z -> x <= a \/ b <= x).
    { intros x Hx. destruct (Rle_or_lt x t); [left; apply Ma; [right; exact Hx|assumption]|right; apply Mb; [exact Hx|lra]]. }
    destruct (Rle_or_lt b a) as [C|C]; [exists a; replace t with a by lra; split; [exact Ia|]; split; [exact A0|lra]|].
    set (mu := (t - a) / (b - a)).
    assert (Hmu : 0 <= mu <= 1).
    { unfold mu. split; [apply Rmult_le_pos; [lra|left; apply Rinv_0_lt_compat; lra]|].
      apply Rmult_le_reg_r with (b - a); [lra|]. unfold Rdiv. rewrite Rmult_assoc, Rinv_l by lra. lra. }
    pose proof (empirical_segment k u z a b t mu Hz Hmu ltac:(lra) ltac:(unfold mu; field; lra) G) as S.
    destruct (Rle_or_lt (empirical k u z a) (empirical k u z b)).
    + exists a. split; [exact Ia|]. split; [exact A0|]. rewrite S. nra.
    + exists b. split; [right; exact Ib|]. split; [lra|]. rewrite S. nra.
  - exists a. split; [exact Ia|]. split; [exact A0|]. apply empirical_beyond; auto. intros x Hx. apply Ma; [right; exact Hx|].
    destruct (Rle_or_lt x t); [assumption|]. exfalso. apply E. exists (- x). split; [apply in_map; exact Hx|lra].
Qed.

Lemma demand_minimises k u z : 0 <= k -> z <> [] -> Forall (fun x => 0 <= x) z -> exists a, In a (0 :: z) /\ minimises (empirical k u z) a.
Proof.
  intros Hk Hz Hp. destruct (argmin_in (empirical k u z) (0 :: z) ltac:(congruence)) as (a & Ia & Ma). exists a. split; [exact Ia|]. split.
  - destruct Ia as [<-|Ia]; [lra|]. rewrite Forall_forall in Hp. auto.
  - intros t Ht. destruct (breakpoint_below k u z t Hk Hz Ht) as (b & Ib & _ & Lb). specialize (Ma b Ib). lra.
Qed.

(* the other programme *)
Lemma saa1_above k u z s theta : 0 <= u -> z <> [] -> saa1_feasible k u z s theta -> empirical k u z theta <= saa1_objective s.
Proof.
  intros Hu Hz (L & F). unfold empirical, saa1_objective, rmean. rewrite rsum_map_scal, map_id, map_length, L.
  assert (N : 0 < INR (length z)) by (destruct z; [congruence|apply lt_0_INR; simpl; lia]).
  assert (E : rsum (map (nv_cost k u theta) z) <= rsum s).
  { apply F2_rsum_le. clear L Hz N. induction F as [|b x s z [B1 B2] _ IH]; simpl; constructor; auto.
    unfold nv_cost, Rmin. destruct (Rle_dec theta x); nra. }
  apply Rle_trans with (rsum s / INR (length z)); [apply Rmult_le_compat_r; [left; apply Rinv_0_lt_compat; lra|lra]|].
  right. field. lra.
Qed.

Lemma saa1_attained k u z theta : 0 <= u -> z <> [] ->
  saa1_feasible k u z (map (nv_cost k u theta) z) theta /\ saa1_objective (map (nv_cost k u theta) z) = empirical k u z theta.
Proof.
  intros Hu Hz. assert (N : 0 < INR (length z)) by (destruct z; [congruence|apply lt_0_INR; simpl; lia]). split.
  - split; [apply map_length|]. clear Hz N. induction z; simpl; constructor; auto. unfold nv_cost, Rmin. destruct (Rle_dec theta a); split; nra.
  - unfold empirical, saa1_objective, rmean. rewrite rsum_map_scal, map_id, !map_length. field. lra.
Qed.

Lemma empirical_negative k u z t : z <> [] -> Forall (fun x => 0 <= x) z -> t <= 0 -> empirical k u z t = (k - u) * t.
Proof.
  intros Hz Hp Ht. rewrite empirical_eq by exact Hz.
  assert (E : map (Rmin t) z = map (fun _ => t) z).
  { apply map_ext_in. intros x Hx. rewrite Forall_forall in Hp. specialize (Hp x Hx). apply Rmin_left. lra. }
  rewrite E. unfold rmean. rewrite rsum_map_const, map_length.
  assert (N : 0 < INR (length z)) by (destruct z; [congruence|apply lt_0_INR; simpl; lia]). field. lra.
Qed.

Lemma saa1_iff k u z theta : 0 <= u -> z <> [] -> (saa1_optimal k u z theta <-> forall t, empirical k u z theta <= empirical k u z t).
Proof.
  intros Hu Hz. split.
  - intros (s & F & M) t. pose proof (saa1_above k u z s theta Hu Hz F). destruct (saa1_attained k u z t Hu Hz) as [F' E]. specialize (M _ _ F'). lra.
  - intros M. destruct (saa1_attained k u z theta Hu Hz) as [F E]. exists (map (nv_cost k u theta) z). split; [exact F|].
    intros s' theta' F'. pose proof (saa1_above k u z s' theta' Hu Hz F'). specialize (M theta'). lra.
Qed.

Lemma saa_agree k u z theta : 0 <= u -> k <= u -> z <> [] -> Forall (fun x => 0 <= x) z -> 0 <= theta ->
  (saa1_optimal k u z theta <-> saa2_optimal k u z theta).
Proof.
  intros Hu Hk Hz Hp H0. rewrite (saa1_iff k u z theta Hu Hz), (saa2_iff k u z theta Hu Hz). split; intros M.
  - split; [exact H0|]. intros t _. apply M.
  - destruct M as [_ M]. intros t. destruct (Rle_or_lt 0 t) as [C|C]; [apply M; exact C|].
    rewrite (empirical_negative k u z t Hz Hp ltac:(lra)). specialize (M 0 ltac:(lra)). rewrite (empirical_zero k u z Hp) in M. nra.
Qed.

(* when buying costs more than selling the first programme has no solution *)
Lemma saa1_unbounded k u z : 0 <= u -> u < k -> z <> [] -> Forall (fun x => 0 <= x) z ->
  forall B, exists s theta, saa1_feasible k u z s theta /\ saa1_objective s < B.
Proof.
  intros Hu Hk Hz Hp B. set (t := Rmin 0 ((B - 1) / (k - u))).
  destruct (saa1_attained k u z t Hu Hz) as [F E]. exists (map (nv_cost k u t) z), t. split; [exact F|]. rewrite E.
  assert (T0 : t <= 0) by apply Rmin_l. assert (T1 : t <= (B - 1) / (k - u)) by apply Rmin_r.
  rewrite (empirical_negative k u z t Hz Hp T0).
  apply (Rmult_le_compat_l (k - u)) in T1; [|lra]. replace ((k - u) * ((B - 1) / (k - u))) with (B - 1) in T1 by (field; lra). lra.
Qed.
