(* Proofs about the primal losses. *)
From Coq Require Import Reals List Lra Lia Bool Arith Permutation.
From Verif Require Import PyBase RList XReal Tensor Loss_Model Loss_Spec DedProg_Model DedLog_Proofs DedPf_Proofs.
Import ListNotations.
Local Open Scope R_scope.

(* ---------- reductions ---------- *)
Lemma mean_last_batch b k xs : widths k xs -> prodl b = length xs -> mean_last (batch b k xs) = per_sample b (map rmean xs).
Proof.
  intros W P. unfold mean_last. destruct (shp (batch b k xs)) as [|n s] eqn:E; [exfalso; cbn in E; destruct b; discriminate|]. rewrite <- E.
  rewrite (trows_batch b k xs W P). unfold per_sample, batch. cbn [shp]. rewrite removelast_snoc, concat_singletons. reflexivity.
Qed.

Lemma unsqueeze_flat n vals : unsqueeze_last (mkT [n] vals) = per_sample [n] vals.
Proof. unfold unsqueeze_last, per_sample, batch. simpl. rewrite concat_singletons. reflexivity. Qed.

Lemma view_per_sample n b vals : n = length vals -> prodl b = length vals -> view (b ++ [1%nat]) (per_sample [n] vals) = Ok (per_sample b vals).
Proof.
  intros -> P. unfold view, per_sample, batch. cbn [dat]. rewrite concat_singletons, prodl_snoc_1, P, Nat.eqb_refl. reflexivity.
Qed.

(* ---------- regularisation ---------- *)
Definition reg_of (l2 : option R) (th : vec) : R := match l2 with None => 0 | Some r => 5 / 10 * r * rsum (map (fun a => a * a) th) end.

Lemma addc_0 t : addc 0 t = t.
Proof. destruct t as [s d]. unfold addc. simpl. f_equal. rewrite (map_ext _ (fun a => a)) by (intros; ring). apply map_id. Qed.

Lemma regularize_ok l2 th t : (l2 = None \/ exists v, th = Ok v) ->
  exists c, regularize l2 th t = Ok (addc c t) /\ (l2 = None -> c = 0) /\ (forall r v, l2 = Some r -> th = Ok v -> c = 5 / 10 * r * rsum (map (fun a => a * a) v)).
Proof.
  intros H. destruct l2 as [r|].
  - destruct H as [H|[v ->]]; [discriminate|]. simpl. eexists. split; [reflexivity|]. split; [discriminate|]. intros r' v' E E'. injection E as <-. injection E' as <-. reflexivity.
  - exists 0. simpl. rewrite addc_0. split; [reflexivity|]. split; [auto|discriminate].
Qed.

(* the constant added by the regularisation of a wrapped loss *)
Definition w_reg (w : wrapped) : option R :=
  match w_l2 w with None => Some 0 | Some r => match w_theta w with Ok th => Some (5 / 10 * r * rsum (map (fun a => a * a) th)) | Raise _ => None end end.

Lemma w_regularize w c t : w_reg w = Some c -> regularize (w_l2 w) (w_theta w) t = Ok (addc c t).
Proof.
  unfold w_reg, regularize. destruct (w_l2 w); [|intros E; injection E as <-; rewrite addc_0; reflexivity].
  destruct (w_theta w); [|discriminate]. intros E; injection E as <-. reflexivity.
Qed.

Lemma addc_batch c b k xs : addc c (batch b k xs) = batch b k (map (map (fun a => a + c)) xs).
Proof. unfold addc, batch. simpl. rewrite concat_map. reflexivity. Qed.

Lemma widths_map k f xs : widths k xs -> widths k (map (map f) xs).
Proof. intros W. apply Forall_map. eapply Forall_impl; [|exact W]. simpl. intros x H. rewrite map_length. exact H. Qed.

Lemma rmean_shift c x : x <> [] -> rmean (map (fun a => a + c) x) = rmean x + c.
Proof. intros H. rewrite (rmean_map_plus (fun a => a) (fun _ => c)), map_id, rmean_map_const by exact H. reflexivity. Qed.

Lemma widths_map2 k (g : vec -> vec -> vec) : (forall x y, length (g x y) = k) -> forall xs ys, widths k (map2 g xs ys).
Proof. intros H. induction xs as [|x xs IH]; intros [|y ys]; simpl; constructor; auto. apply IH. Qed.

Lemma map_rmean_shift k c xs : (0 < k)%nat -> widths k xs -> map rmean (map (map (fun a => a + c)) xs) = map (fun v => v + c) (map rmean xs).
Proof.
  intros K W. rewrite !map_map. apply map_ext_in. intros x Hx. apply rmean_shift. unfold widths in W. rewrite Forall_forall in W. specialize (W x Hx).
  destruct x; [simpl in W; lia|discriminate].
Qed.

(* ---------- the wrapped loss ---------- *)
Section W.
Variables (loss : tensor -> option tensor -> Result tensor) (w : wrapped) (c : R).
Hypothesis Hc : w_reg w = Some c.

Lemma flat_ok xi y l : loss xi y = Ok l -> flat_value loss w xi y = Ok (addc c l).
Proof. intros E. unfold flat_value. rewrite E. simpl. apply w_regularize. exact Hc. Qed.

Section Labelled.
Variables (d dl k : nat) (g : vec -> vec -> vec).
Hypothesis HL : w_has_labels w = true.
Hypothesis Hr : w_reduce w = true.
Hypothesis K : (0 < k)%nat.
Hypothesis Hg : forall x y, length (g x y) = k.
Hypothesis Hloss : rowwise_labelled loss d dl k g.

Definition vals (xs ys : list vec) : list R := map2 (fun x y => rmean (g x y) + c) xs ys.

Lemma vals_length xs ys : length xs = length ys -> length (vals xs ys) = length xs.
Proof. intros H. apply map2_length. exact H. Qed.

Lemma vals_mean xs ys : map rmean (map (map (fun a => a + c)) (map2 g xs ys)) = vals xs ys.
Proof. rewrite (map_rmean_shift k c) by (try exact K; apply widths_map2; exact Hg). unfold vals. rewrite !map_map2. reflexivity. Qed.

Lemma flat_labelled xs ys : widths d xs -> widths dl ys -> length xs = length ys ->
  flat_value loss w (batch [length xs] d xs) (Some (batch [length xs] dl ys)) = Ok (batch [length xs] k (map (map (fun a => a + c)) (map2 g xs ys))).
Proof. intros W1 W2 L. rewrite (flat_ok _ _ _ (Hloss xs ys W1 W2 L)), addc_batch. reflexivity. Qed.

Lemma rows_length xs ys : length xs = length ys -> length (map (map (fun a => a + c)) (map2 g xs ys)) = length xs.
Proof. intros L. rewrite map_length. apply map2_length. exact L. Qed.

Lemma reduce_labelled xs ys : length xs = length ys ->
  reduce_flat w (batch [length xs] k (map (map (fun a => a + c)) (map2 g xs ys))) = per_sample [length xs] (vals xs ys).
Proof.
  intros L. unfold reduce_flat. rewrite Hr, mean_last_batch.
  - rewrite vals_mean. reflexivity.
  - apply widths_map, widths_map2. exact Hg.
  - simpl. rewrite rows_length by exact L. lia.
Qed.

(* zetas: at least two batch axes, labels on the same axes or already flat *)
Lemma labelled_zetas b xs ys : (2 <= length b)%nat -> prodl b = length xs -> widths d xs -> widths dl ys -> length xs = length ys ->
  w_value loss w (batch b d xs) (Some (batch b dl ys)) = Ok (per_sample b (vals xs ys)) /\
  w_value loss w (batch b d xs) (Some (batch [length xs] dl ys)) = Ok (per_sample b (vals xs ys)).
Proof.
  intros Hb P W1 W2 L. unfold w_value. rewrite HL, !batch_dim.
  assert (B : (2 <? S (length b))%nat = true) by (apply Nat.ltb_lt; lia). rewrite B. simpl andb.
  assert (E : removelast (shp (batch b d xs)) = b) by apply removelast_snoc. rewrite E. split.
  - rewrite (flatten2_batch b d xs P), (flatten2_batch b dl ys) by (rewrite P; exact L). rewrite <- L. rewrite flat_labelled by assumption. cbn [bind].
    rewrite reduce_labelled by exact L. apply view_per_sample; rewrite vals_length by exact L; [reflexivity|exact P].
  - simpl Nat.ltb. simpl Nat.eqb. cbv iota. rewrite (flatten2_batch b d xs P). rewrite flat_labelled by assumption. cbn [bind].
    rewrite reduce_labelled by exact L. apply view_per_sample; rewrite vals_length by exact L; [reflexivity|exact P].
Qed.

(* one point *)
Lemma labelled_point x y : length x = d -> length y = dl -> w_value loss w (mkT [d] x) (Some (mkT [dl] y)) = Ok (mkT [] [rmean (g x y) + c]).
Proof.
  intros Lx Ly. unfold w_value. rewrite HL. unfold tdim. simpl. unfold unsqueeze_first. simpl.
  assert (E1 : mkT [1%nat; d] x = batch [length [x]] d [x]) by (unfold batch; simpl; rewrite app_nil_r; reflexivity).
  assert (E2 : mkT [1%nat; dl] y = batch [length [x]] dl [y]) by (unfold batch; simpl; rewrite app_nil_r; reflexivity).
  rewrite E1, E2. rewrite flat_labelled by (try reflexivity; constructor; try assumption; constructor). cbn [bind].
  rewrite reduce_labelled by reflexivity. unfold squeeze, per_sample, batch, vals. simpl. reflexivity.
Qed.

(* a 2-dimensional batch: the squeeze decides *)
Lemma labelled_batch_wide xs ys : (2 <= k)%nat -> (2 <= length xs)%nat -> widths d xs -> widths dl ys -> length xs = length ys ->
  w_value loss w (batch [length xs] d xs) (Some (batch [length xs] dl ys)) = Ok (per_sample [length xs] (vals xs ys)).
Proof.
  intros K2 N W1 W2 L. unfold w_value. rewrite HL, !batch_dim. simpl andb. cbv iota. rewrite flat_labelled by assumption. cbn [bind]. f_equal.
  etransitivity; [|exact (reduce_labelled xs ys L)]. f_equal. unfold squeeze, batch. simpl.
  assert (A : Nat.eqb (length xs) 1 = false) by (apply Nat.eqb_neq; lia). assert (B : Nat.eqb k 1 = false) by (apply Nat.eqb_neq; lia). rewrite A, B. reflexivity.
Qed.

Lemma concat_rows1 (xs : list (list R)) : widths 1 xs -> List.concat xs = map rmean xs.
Proof.
  induction 1 as [|x xs H W IH]; simpl; [reflexivity|]. destruct x as [|a [|]]; try discriminate. simpl. rewrite IH. f_equal. unfold rmean. simpl. field.
Qed.

Lemma labelled_batch_narrow xs ys : k = 1%nat -> (2 <= length xs)%nat -> widths d xs -> widths dl ys -> length xs = length ys ->
  w_value loss w (batch [length xs] d xs) (Some (batch [length xs] dl ys)) = Ok (mkT [1%nat] [rmean (vals xs ys)]).
Proof.
  intros K1 N W1 W2 L. unfold w_value. rewrite HL, !batch_dim. simpl andb. cbv iota. rewrite flat_labelled by assumption. cbn [bind]. f_equal.
  unfold squeeze, batch, reduce_flat. rewrite Hr. simpl. assert (A : Nat.eqb (length xs) 1 = false) by (apply Nat.eqb_neq; lia).
  rewrite K1, A. simpl.
  assert (Wd : widths 1 (map (map (fun a => a + c)) (map2 g xs ys))) by (rewrite <- K1; apply widths_map, widths_map2; exact Hg).
  rewrite (concat_rows1 _ Wd), vals_mean. unfold mean_last. simpl. unfold trows. simpl. do 3 f_equal.
  replace (length xs) with (length (vals xs ys)) by (apply vals_length; exact L). apply firstn_all.
Qed.
End Labelled.

(* losses without a trailing axis (reduce_spatial_dims=False) *)
Section Flat.
Variables (d dl : nat) (h : vec -> vec -> R).
Hypothesis HL : w_has_labels w = true.
Hypothesis Hr : w_reduce w = false.
Hypothesis Hloss : rowwise_flat_labelled loss d dl h.
Definition fvals (xs ys : list vec) : list R := map2 (fun x y => h x y + c) xs ys.

Lemma fvals_length xs ys : length xs = length ys -> length (fvals xs ys) = length xs.
Proof. intros H. apply map2_length. exact H. Qed.

Lemma flat_labelled_f xs ys : widths d xs -> widths dl ys -> length xs = length ys ->
  flat_value loss w (batch [length xs] d xs) (Some (batch [length xs] dl ys)) = Ok (mkT [length xs] (fvals xs ys)).
Proof. intros W1 W2 L. rewrite (flat_ok _ _ _ (Hloss xs ys W1 W2 L)). unfold addc. simpl. rewrite map_map2. reflexivity. Qed.

Lemma flat_zetas b xs ys : (2 <= length b)%nat -> prodl b = length xs -> widths d xs -> widths dl ys -> length xs = length ys ->
  w_value loss w (batch b d xs) (Some (batch b dl ys)) = Ok (per_sample b (fvals xs ys)).
Proof.
  intros Hb P W1 W2 L. unfold w_value. rewrite HL, !batch_dim.
  assert (B : (2 <? S (length b))%nat = true) by (apply Nat.ltb_lt; lia). rewrite B. simpl andb. cbv iota.
  assert (E : removelast (shp (batch b d xs)) = b) by apply removelast_snoc. rewrite E.
  rewrite (flatten2_batch b d xs P), (flatten2_batch b dl ys) by (rewrite P; exact L). rewrite <- L. rewrite flat_labelled_f by assumption. cbn [bind].
  unfold reduce_flat. rewrite Hr. rewrite unsqueeze_flat. apply view_per_sample; rewrite fvals_length by exact L; [reflexivity|exact P].
Qed.

Lemma flat_batch xs ys : (2 <= length xs)%nat -> widths d xs -> widths dl ys -> length xs = length ys ->
  w_value loss w (batch [length xs] d xs) (Some (batch [length xs] dl ys)) = Ok (per_sample [length xs] (fvals xs ys)).
Proof.
  intros N W1 W2 L. unfold w_value. rewrite HL, !batch_dim. simpl andb. cbv iota. rewrite flat_labelled_f by assumption. cbn [bind]. f_equal.
  unfold reduce_flat, squeeze. rewrite Hr. simpl. assert (A : Nat.eqb (length xs) 1 = false) by (apply Nat.eqb_neq; lia). rewrite A. simpl.
  apply unsqueeze_flat.
Qed.
End Flat.

Section Unlabelled.
Variables (d k : nat) (g : vec -> vec).
Hypothesis HL : w_has_labels w = false.
Hypothesis Hr : w_reduce w = true.
Hypothesis K : (0 < k)%nat.
Hypothesis Hg : forall x, length (g x) = k.
Hypothesis Hloss : rowwise loss d k g.
Definition uvals (xs : list vec) : list R := map (fun x => rmean (g x) + c) xs.

Lemma widths_g xs : widths k (map g xs).
Proof. apply Forall_map, Forall_forall. intros; apply Hg. Qed.

Lemma flat_unlabelled xs : widths d xs -> flat_value loss w (batch [length xs] d xs) None = Ok (batch [length xs] k (map (map (fun a => a + c)) (map g xs))).
Proof. intros W. rewrite (flat_ok _ _ _ (Hloss xs W)), addc_batch. reflexivity. Qed.

Lemma reduce_unlabelled xs : reduce_flat w (batch [length xs] k (map (map (fun a => a + c)) (map g xs))) = per_sample [length xs] (uvals xs).
Proof.
  unfold reduce_flat. rewrite Hr, mean_last_batch.
  - rewrite (map_rmean_shift k c) by (try exact K; apply widths_g). rewrite !map_map. reflexivity.
  - apply widths_map, widths_g.
  - simpl. rewrite !map_length. lia.
Qed.

Lemma unlabelled_zetas b xs : (2 <= length b)%nat -> prodl b = length xs -> widths d xs -> w_value loss w (batch b d xs) None = Ok (per_sample b (uvals xs)).
Proof.
  intros Hb P W. unfold w_value. rewrite HL, !batch_dim. assert (B : (2 <? S (length b))%nat = true) by (apply Nat.ltb_lt; lia). rewrite B.
  assert (E : removelast (shp (batch b d xs)) = b) by apply removelast_snoc. rewrite E, (flatten2_batch b d xs P).
  rewrite flat_unlabelled by assumption. cbn [bind]. rewrite reduce_unlabelled. apply view_per_sample; unfold uvals; rewrite map_length; [reflexivity|exact P].
Qed.

Lemma unlabelled_batch xs : (2 <= length xs)%nat -> widths d xs -> w_value loss w (batch [length xs] d xs) None = Ok (mkT [length xs] (uvals xs)).
Proof.
  intros N W. unfold w_value. rewrite HL, !batch_dim. simpl Nat.ltb. simpl Nat.eqb. cbv iota. rewrite flat_unlabelled by assumption. cbn [bind].
  rewrite reduce_unlabelled. unfold squeeze, per_sample, batch. simpl. rewrite concat_singletons.
  match goal with |- context [Nat.eqb ?n 1] => assert (A : Nat.eqb n 1 = false) by (apply Nat.eqb_neq; unfold vec in *; lia); rewrite A end. reflexivity.
Qed.

Lemma unlabelled_point x : length x = d -> w_value loss w (mkT [d] x) None = Ok (mkT [] [rmean (g x) + c]).
Proof.
  intros Lx. unfold w_value. rewrite HL. unfold tdim. simpl. unfold unsqueeze_first. simpl.
  assert (E1 : mkT [1%nat; d] x = batch [length [x]] d [x]) by (unfold batch; simpl; rewrite app_nil_r; reflexivity).
  rewrite E1, flat_unlabelled by (constructor; [exact Lx|constructor]). cbn [bind]. rewrite reduce_unlabelled. reflexivity.
Qed.
End Unlabelled.
End W.

Lemma w_errors loss w xi : (w_has_labels w = true -> w_value loss w xi None = Raise AssertionError) /\
  (forall y, w_has_labels w = false -> w_value loss w xi (Some y) = Raise AssertionError) /\
  (forall y, w_has_labels w = true -> (tdim xi <= 1)%nat -> tdim y <> tdim xi -> w_value loss w xi (Some y) = Raise NotImplementedError).
Proof.
  split; [intros H; unfold w_value; rewrite H; reflexivity|]. split; [intros y H; unfold w_value; rewrite H; reflexivity|].
  intros y H L N. unfold w_value. rewrite H. destruct (tdim xi) as [|[|]]; try lia; simpl.
  - reflexivity.
  - destruct (tdim y) as [|[|]]; simpl; try reflexivity. congruence.
Qed.

Lemma no_params_reg loss w xi y l : w_l2 w <> None -> (w_oop w = false \/ w_loss_params w = []) -> w_transform_params w = [] -> loss xi y = Ok l ->
  flat_value loss w xi y = Raise RuntimeError.
Proof.
  intros H1 H2 H3 E. unfold flat_value. rewrite E. simpl. unfold regularize, w_theta. destruct (w_l2 w); [|congruence].
  rewrite H3, app_nil_r. destruct H2 as [-> | ->]; [reflexivity|]. destruct (w_oop w); reflexivity.
Qed.

(* ---------- softmax ---------- *)
Lemma softmax_long_only v : v <> [] -> long_only (softmax v).
Proof.
  intros H. assert (S : 0 < rsum (map exp v)).
  { destruct v as [|a v]; [congruence|]. simpl. pose proof (exp_pos a). assert (0 <= rsum (map exp v)) by (apply rsum_map_nonneg; intros; left; apply exp_pos). lra. }
  unfold softmax. split.
  - apply Forall_map, Forall_forall. intros a _. apply Rdiv_lt_0_compat; [apply exp_pos|exact S].
  - rewrite (map_ext _ (fun a => / rsum (map exp v) * exp a)) by (intros; unfold Rdiv; ring). rewrite rsum_map_scal. apply Rinv_l. lra.
Qed.

Lemma softmax_onto w : long_only w -> softmax (map ln w) = w.
Proof.
  intros [P S]. assert (E : map exp (map ln w) = w).
  { rewrite map_map. rewrite <- (map_id w) at 2. apply map_ext_in. intros a Ha. apply exp_ln. rewrite Forall_forall in P. auto. }
  unfold softmax. rewrite E, S. rewrite map_map. rewrite <- (map_id w) at 2. apply map_ext_in. intros a Ha. rewrite exp_ln by (rewrite Forall_forall in P; auto). field.
Qed.

Lemma softmax_shift c v : softmax (map (fun a => a + c) v) = softmax v.
Proof.
  unfold softmax. rewrite !map_map. rewrite (map_ext (fun a => exp (a + c)) (fun a => exp c * exp a)) by (intros; rewrite exp_plus; ring).
  rewrite rsum_map_scal. destruct v as [|b v]; [reflexivity|]. apply map_ext. intros a. rewrite exp_plus.
  assert (0 < rsum (map exp (b :: v))).
  { simpl. pose proof (exp_pos b). assert (0 <= rsum (map exp v)) by (apply rsum_map_nonneg; intros; left; apply exp_pos). lra. }
  field. split; [lra|]. pose proof (exp_pos c). lra.
Qed.

Lemma softmax_length v : length (softmax v) = length v.
Proof. apply map_length. Qed.

(* linear with one output *)
Lemma linear1_batch wt bias d b xs : widths d xs -> prodl b = length xs ->
  linear [wt] [bias] d (batch b d xs) = Ok (batch b 1 (map (fun x => [dot x wt + bias]) xs)).
Proof.
  intros W P. unfold linear. cbn [shp]. unfold batch at 1. cbn [shp]. rewrite last_snoc, Nat.eqb_refl, (trows_batch b d xs W P).
  unfold batch. cbn [shp]. rewrite removelast_snoc. reflexivity.
Qed.

Lemma concat_map_single {A} (f : A -> R) (l : list A) : List.concat (map (fun x => [f x]) l) = map f l.
Proof. induction l; simpl; [reflexivity|]. rewrite IHl. reflexivity. Qed.

Lemma pf_forward_batch eta alpha raw tau b xs : widths (length raw) xs -> prodl b = length xs ->
  pf_forward eta alpha raw tau (batch b (length raw) xs) = Ok (per_sample b (map (risk_loss eta alpha (softmax raw) tau) xs)).
Proof.
  intros W P. unfold pf_forward. rewrite linear1_batch by assumption. simpl. unfold per_sample, batch, tmap. simpl. do 2 f_equal.
  rewrite (concat_map_single (fun x => dot x (softmax raw) + 0)), concat_singletons, map_map. apply map_ext. intros x. unfold risk_loss.
  rewrite Rplus_0_r, (dot_comm x). reflexivity.
Qed.

(* ---------- mean-CVaR ---------- *)
Lemma cvar_weak alpha tau : 0 < alpha -> forall zs q, zs <> [] -> reweighting alpha zs q -> dot q zs <= tau + rmean (map (fun z => Rmax (z - tau) 0) zs) / alpha.
Proof.
  intros Ha zs q N (L & F & S). pose proof (INR_length_pos zs N) as Np. set (n := INR (length zs)) in *.
  assert (E : dot q zs <= tau * rsum q + 1 / (alpha * n) * rsum (map (fun z => Rmax (z - tau) 0) zs)).
  { clear S N. clearbody n. unfold dot. revert zs L. induction F as [|a q Ha' F IH]; intros [|z zs] L; simpl in *; try discriminate; [lra|].
    specialize (IH zs ltac:(congruence)). pose proof (Rmax_l (z - tau) 0). pose proof (Rmax_r (z - tau) 0).
    assert (a * (z - tau) <= 1 / (alpha * n) * Rmax (z - tau) 0); [|lra].
    apply Rle_trans with (a * Rmax (z - tau) 0); [apply Rmult_le_compat_l; lra|apply Rmult_le_compat_r; lra]. }
  rewrite S in E. replace (1 / (alpha * n) * rsum (map (fun z => Rmax (z - tau) 0) zs)) with (rmean (map (fun z => Rmax (z - tau) 0) zs) / alpha) in E; [lra|].
  unfold rmean. rewrite map_length. fold n. field. split; lra.
Qed.

Lemma combine_split_perm {A B} (l : list (A * B)) : combine (map fst l) (map snd l) = l.
Proof. induction l as [|[a b] l IH]; simpl; [reflexivity|]. rewrite IH. reflexivity. Qed.

Lemma snd_combine {A B} (q : list A) : forall l : list B, length q = length l -> map snd (combine q l) = l.
Proof. induction q as [|x q IH]; intros [|y l] H; simpl in *; try discriminate; [reflexivity|]. f_equal. apply IH. congruence. Qed.
Lemma fst_combine {A B} (q : list A) : forall l : list B, length q = length l -> map fst (combine q l) = q.
Proof. induction q as [|x q IH]; intros [|y l] H; simpl in *; try discriminate; [reflexivity|]. f_equal. apply IH. congruence. Qed.

Lemma full_flips (L : R) : forall l f, length f = length l -> Forall (fun m => L < m) l -> Forall (fun t => 0 <= t <= 1) f ->
  rsum (map2 Rmult f l) = rsum (map (fun m => Rmax 0 (m - L)) l) + L * rsum f -> rsum f = INR (length l).
Proof.
  intros l f Lf Fl Ff E.
  assert (G : rsum (map2 Rmult f l) <= rsum (map (fun m => Rmax 0 (m - L)) l) + L * rsum f /\
              (rsum (map2 Rmult f l) = rsum (map (fun m => Rmax 0 (m - L)) l) + L * rsum f -> rsum f = INR (length l))).
  { clear E. revert f Lf Ff. induction Fl as [|m l Hm Fl IH]; intros [|t f] Lf Ff; simpl in Lf; try discriminate; [simpl; lra|].
    inversion Ff as [|? ? Ft Ff']; subst. destruct (IH f ltac:(congruence) Ff') as [I1 I2]. cbn [map2 map rsum]. rewrite (Rmax_right 0 (m - L)) by lra. split; [nra|].
    intros E'. assert (T : t = 1) by nra. change (length (m :: l)) with (S (length l)). rewrite S_INR, T, I2; [ring|]. rewrite T in E'. lra. }
  apply G. exact E.
Qed.

Lemma cvar_strong alpha zs : 0 < alpha <= 1 -> zs <> [] ->
  exists tau q, reweighting alpha zs q /\ dot q zs = tau + rmean (map (fun z => Rmax (z - tau) 0) zs) / alpha.
Proof.
  intros Ha N. pose proof (INR_length_pos zs N) as Np. set (n := INR (length zs)) in *.
  set (L := - (1 + rmax0 (map Ropp zs))).
  assert (HL : forall z, In z zs -> L < z).
  { intros z Hz. assert (- z <= rmax0 (map Ropp zs)) by (apply rmax0_ge; apply in_map; exact Hz). unfold L. lra. }
  set (l := ksort (fun z => z) zs). pose proof (ksort_perm (fun z => z) zs : Permutation l zs) as P.
  pose proof (kdesc_desc (fun z => z) l (ksort_desc (fun z => z) zs)) as D. rewrite map_id in D.
  assert (B0 : 0 <= alpha * n) by nra.
  destruct (flips_spec L l D (alpha * n) B0) as (Lf & Ff & Sf & a & Ia & V). set (f := flips L (alpha * n) l) in *.
  assert (Ll : length l = length zs) by exact (Permutation_length P).
  assert (Sum : rsum f = alpha * n).
  { destruct Ia as [-> |(_ & _ & Ia)]; [|exact Ia].
    assert (rsum f = INR (length l)); [|rewrite Ll in H; fold n in H; nra].
    apply (full_flips L l f Lf); auto. apply Forall_forall. intros z Hz. apply HL. exact (Permutation_in _ P Hz). }
  set (q' := map (fun t => / (alpha * n) * t) f).
  assert (An : 0 < alpha * n) by nra. assert (Ai : 0 < / (alpha * n)) by (apply Rinv_0_lt_compat; exact An).
  assert (R' : reweighting alpha l q').
  { unfold reweighting, q'. rewrite map_length, Ll. fold n. split; [rewrite Lf; exact Ll|]. split.
    - apply Forall_map. eapply Forall_impl; [|exact Ff]. simpl. intros t Ht. unfold Rdiv. split; nra.
    - rewrite rsum_map_scal, map_id, Sum. apply Rinv_l. lra. }
  assert (Dq : dot q' l = a + rmean (map (fun z => Rmax (z - a) 0) l) / alpha).
  { unfold q', dot. rewrite map2_map_l.
    assert (E : rsum (map2 (fun t m => / (alpha * n) * t * m) f l) = / (alpha * n) * rsum (map2 Rmult f l)).
    { clearbody f l n. clear. revert l. induction f as [|t f IH]; intros [|m l]; simpl; try ring. rewrite IH. ring. }
    rewrite E, V, Sum. unfold rmean. rewrite map_length, Ll. fold n.
    rewrite (map_ext (fun m => Rmax 0 (m - a)) (fun z => Rmax (z - a) 0)) by (intros; apply Rmax_comm). field. split; lra. }
  (* back to the original order *)
  assert (PC : Permutation zs (map snd (combine q' l))).
  { assert (Eq : map snd (combine q' l) = l).
    { apply snd_combine. unfold q'. rewrite map_length. exact Lf. }
    rewrite Eq. symmetry. exact P. }
  apply Permutation_map_inv in PC as (c & Ec & Pc). exists a, (map fst c).
  assert (Lq : length q' = length l) by (unfold q'; rewrite map_length; exact Lf).
  assert (Eq1 : map fst (combine q' l) = q').
  { apply fst_combine. exact Lq. }
  assert (Pq : Permutation (map fst c) q') by (rewrite <- Eq1; symmetry; apply Permutation_map; exact Pc).
  assert (Dc : dot (map fst c) zs = dot q' l).
  { rewrite Ec. unfold dot. rewrite !map2_map_combine. rewrite combine_split_perm. apply rsum_perm. apply Permutation_map. symmetry. exact Pc. }
  split.
  - destruct R' as (R1 & R2 & R3). unfold reweighting. split; [rewrite Ec, !map_length; reflexivity|]. split.
    + rewrite Forall_forall in *. intros x Hx. rewrite <- Ll. apply R2. exact (Permutation_in _ Pq Hx).
    + rewrite (rsum_perm _ _ Pq). exact R3.
  - rewrite Dc, Dq. f_equal. f_equal. apply rmean_perm, Permutation_map. exact P.
Qed.

Lemma risk_loss_cvar eta alpha w xs : 0 <= eta -> 0 < alpha <= 1 -> xs <> [] ->
  exists tau cvar, is_cvar alpha (map (fun x => - dot w x) xs) cvar /\
    rmean (map (risk_loss eta alpha w tau) xs) = rmean (map (fun x => - dot w x) xs) + eta * cvar /\
    forall tau', rmean (map (fun x => - dot w x) xs) + eta * cvar <= rmean (map (risk_loss eta alpha w tau') xs).
Proof.
  intros He Ha N. set (zs := map (fun x => - dot w x) xs).
  assert (Nz : zs <> []) by (unfold zs; destruct xs; [congruence|discriminate]).
  destruct (cvar_strong alpha zs Ha Nz) as (tau & q & R & E).
  assert (F : forall t, rmean (map (risk_loss eta alpha w t) xs) = rmean zs + eta * (t + rmean (map (fun z => Rmax (z - t) 0) zs) / alpha)).
  { intros t. unfold risk_loss. rewrite rmean_map_plus, rmean_map_scal. fold zs. do 2 f_equal. rewrite rmean_map_plus, rmean_map_const by exact N. f_equal.
    unfold zs. rewrite map_map. rewrite (map_ext _ (fun x => / alpha * Rmax (- dot w x - t) 0)) by (intros; unfold Rdiv; ring). rewrite rmean_map_scal. unfold Rdiv. ring. }
  exists tau, (dot q zs). split; [|split].
  - split; [exists q; auto|]. intros q' R'. rewrite E. apply cvar_weak; auto. lra.
  - rewrite F, E. reflexivity.
  - intros tau'. rewrite F. pose proof (cvar_weak alpha tau' ltac:(lra) zs q Nz R). nra.
Qed.

Lemma risk_loss_convex eta alpha t w1 w2 tau1 tau2 x : 0 <= eta -> 0 < alpha -> 0 <= t <= 1 -> length w1 = length w2 -> length w2 = length x ->
  risk_loss eta alpha (vadd (vscal t w1) (vscal (1 - t) w2)) (t * tau1 + (1 - t) * tau2) x
  <= t * risk_loss eta alpha w1 tau1 x + (1 - t) * risk_loss eta alpha w2 tau2 x.
Proof.
  intros He Ha Ht L1 L2. unfold risk_loss. rewrite dot_vadd_l, !dot_vscal_l by (rewrite ?vscal_length; congruence).
  set (a := dot w1 x). set (b := dot w2 x). assert (Ai : 0 < / alpha) by (apply Rinv_0_lt_compat; exact Ha).
  set (M := Rmax (- (t * a + (1 - t) * b) - (t * tau1 + (1 - t) * tau2)) 0).
  set (M1 := Rmax (- a - tau1) 0). set (M2 := Rmax (- b - tau2) 0).
  assert (HM : M <= t * M1 + (1 - t) * M2).
  { pose proof (Rmax_l (- a - tau1) 0). pose proof (Rmax_r (- a - tau1) 0). pose proof (Rmax_l (- b - tau2) 0). pose proof (Rmax_r (- b - tau2) 0).
    fold M1 in H, H0. fold M2 in H1, H2. apply Rmax_lub; nra. }
  assert (HE : eta * (M / alpha) <= eta * ((t * M1 + (1 - t) * M2) / alpha)).
  { apply Rmult_le_compat_l; [exact He|]. apply Rmult_le_compat_r; lra. }
  unfold Rdiv in *. lra.
Qed.

(* ---------- newsvendor, Weber ---------- *)
Lemma nv_forward_batch k u theta d b xs : (0 < d)%nat -> widths d xs -> prodl b = length xs ->
  nv_forward k u theta (batch b d xs) = per_sample b (map (fun x => rmean (map (fun a => k * theta - u * Rmin theta a) x)) xs).
Proof.
  intros D W P. unfold nv_forward.
  assert (E : tmap (fun a => k * theta - u * Rmin theta a) (batch b d xs) = batch b d (map (map (fun a => k * theta - u * Rmin theta a)) xs)) by (unfold tmap, batch; simpl; rewrite concat_map; reflexivity).
  rewrite E, mean_last_batch; [rewrite map_map; reflexivity|apply widths_map; exact W|rewrite map_length; exact P].
Qed.

Lemma weber_batch pos d b xs ls : widths d xs -> prodl b = length xs -> length ls = length xs -> b <> [] ->
  weber_forward pos (batch b d xs) (per_sample b ls)
  = Ok (per_sample b (map2 (fun l x => l * norm2 (vsub x pos) * INR (nth 1 (b ++ [1%nat]) 0%nat)) ls xs)).
Proof.
  intros W P L N. unfold weber_forward. rewrite (trows_batch b d xs W P).
  assert (Es : shp (per_sample b ls) = b ++ [1%nat]) by reflexivity. assert (Ed : dat (per_sample b ls) = ls) by apply concat_singletons.
  assert (Ex : removelast (shp (batch b d xs)) = b) by apply removelast_snoc. rewrite Es, Ed, Ex.
  assert (G : forall m, mkT (b ++ [1%nat]) (map2 (fun l a => l * a * INR m) ls (map (fun r => norm2 (vsub r pos)) xs)) = per_sample b (map2 (fun l x => l * norm2 (vsub x pos) * INR m) ls xs))
    by (intros m; unfold per_sample, batch; rewrite concat_singletons, map2_map_r; reflexivity).
  destruct (list_eq_dec Nat.eq_dec (b ++ [1%nat]) (b ++ [1%nat])) as [_|E]; [|congruence].
  destruct b as [|n [|m b]]; [congruence| |]; simpl app; cbn [nth]; rewrite <- G; reflexivity.
Qed.

(* ---------- logistic, quadratic ---------- *)
Lemma logsigmoid_lg z : - logsigmoid z = cp_logistic (- z).
Proof. unfold logsigmoid, cp_logistic. unfold Rdiv. rewrite Rmult_1_l, ln_Rinv by (pose proof (exp_pos (- z)); lra). ring. Qed.

Lemma softmargin_ok input target : length (dat target) = prodl (shp input) ->
  softmargin input target = Ok (mkT (shp input) (map2 (fun t i => ln (1 + exp (- (t * i)))) (dat target) (dat input))).
Proof.
  intros L. unfold softmargin, view. rewrite <- L, Nat.eqb_refl. simpl. do 2 f_equal. generalize (dat input). generalize (dat target).
  induction l as [|t l IH]; intros [|i m]; simpl; auto. rewrite IH, logsigmoid_lg. reflexivity.
Qed.

Lemma softmargin_size input target : length (dat target) <> prodl (shp input) -> softmargin input target = Raise RuntimeError.
Proof. intros L. unfold softmargin, view. destruct (Nat.eqb (prodl (shp input)) (length (dat target))) eqn:E; [apply Nat.eqb_eq in E; congruence|reflexivity]. Qed.

Lemma lg_pos z : 0 < cp_logistic z.
Proof. unfold cp_logistic. rewrite <- ln_1. apply ln_increasing; [lra|]. pose proof (exp_pos z). lra. Qed.

Lemma lg_strict a b : a < b -> cp_logistic a < cp_logistic b.
Proof. intros H. unfold cp_logistic. apply ln_increasing; [pose proof (exp_pos a); lra|]. pose proof (exp_increasing a b H). lra. Qed.

(* tangent: convexity *)
Lemma lg_tangent a b : cp_logistic a + exp a / (1 + exp a) * (b - a) <= cp_logistic b.
Proof.
  set (s := exp a / (1 + exp a)). pose proof (exp_pos a). pose proof (exp_pos b).
  assert (Hs : 0 < s < 1).
  { unfold s. split; [apply Rdiv_lt_0_compat; lra|]. apply Rmult_lt_reg_r with (1 + exp a); [lra|]. unfold Rdiv. rewrite Rmult_assoc, Rinv_l, Rmult_1_r by lra. lra. }
  assert (C : exp (s * (b - a)) <= 1 - s + s * exp (b - a)).
  { pose proof (exp_convex s (b - a) 0 ltac:(lra)) as H1. rewrite Rmult_0_r, Rplus_0_r, exp_0 in H1. lra. }
  assert (E : (1 + exp a) * (1 - s + s * exp (b - a)) = 1 + exp b).
  { replace (exp b) with (exp a * exp (b - a)) by (rewrite <- exp_plus; f_equal; ring). unfold s. field. lra. }
  unfold cp_logistic. rewrite <- E. rewrite ln_mult by (try lra; pose proof (exp_pos (b - a)); nra).
  assert (s * (b - a) <= ln (1 - s + s * exp (b - a))).
  { rewrite <- (ln_exp (s * (b - a))) at 1. destruct C as [C|C]; [left; apply ln_increasing; [apply exp_pos|exact C]|rewrite C; lra]. }
  lra.
Qed.

Lemma lg_convex t a b : 0 <= t <= 1 -> cp_logistic (t * a + (1 - t) * b) <= t * cp_logistic a + (1 - t) * cp_logistic b.
Proof.
  intros Ht. set (m := t * a + (1 - t) * b). pose proof (lg_tangent m a) as H1. pose proof (lg_tangent m b) as H2.
  set (s := exp m / (1 + exp m)) in *.
  assert (t * (cp_logistic m + s * (a - m)) <= t * cp_logistic a) by (apply Rmult_le_compat_l; lra).
  assert ((1 - t) * (cp_logistic m + s * (b - m)) <= (1 - t) * cp_logistic b) by (apply Rmult_le_compat_l; lra).
  assert (t * (s * (a - m)) + (1 - t) * (s * (b - m)) = 0) by (unfold m; ring). lra.
Qed.

Definition l2_add (l2 : option R) (w : vec) : R := match l2 with None => 0 | Some r => 5 / 10 * r * rsum (map (fun a => a * a) w) end.

Lemma regularize_known l2 w t : regularize l2 (Ok w) t = Ok (addc (l2_add l2 w) t).
Proof. destruct l2; simpl; [reflexivity|]. rewrite addc_0. reflexivity. Qed.

Lemma addc_per_sample c b vs : addc c (per_sample b vs) = per_sample b (map (fun v => v + c) vs).
Proof. unfold addc, per_sample, batch. simpl. rewrite !concat_singletons. reflexivity. Qed.

Lemma logistic_batch l2 w bias b xs ys : widths (length w) xs -> prodl b = length xs -> length ys = length xs ->
  logistic_value l2 w bias (batch b (length w) xs) (Some (per_sample b ys))
  = Ok (per_sample b (map2 (fun y x => ln (1 + exp (- (y * (dot w x + bias)))) + l2_add l2 w) ys xs)).
Proof.
  intros W P L. unfold logistic_value. rewrite linear1_batch by assumption. cbn [bind]. rewrite softmargin_ok.
  - cbn [bind]. rewrite regularize_known. f_equal. unfold per_sample, batch, addc. cbn [shp dat]. f_equal. rewrite !concat_singletons, (concat_map_single (fun x => dot x w + bias)), map2_map_r, map_map2.
    clear. revert xs. induction ys as [|y ys IH]; intros [|x xs]; simpl; auto. rewrite IH, (dot_comm x). reflexivity.
  - unfold per_sample, batch. cbn [shp dat]. rewrite concat_singletons, prodl_snoc_1, P. exact L.
Qed.

Lemma quadratic_batch l2 w bias b xs ys : widths (length w) xs -> prodl b = length xs -> length ys = length xs ->
  quadratic_value l2 w bias (batch b (length w) xs) (Some (per_sample b ys))
  = Ok (per_sample b (map2 (fun y x => (dot w x + bias - y) * (dot w x + bias - y) + l2_add l2 w) ys xs)).
Proof.
  intros W P L. unfold quadratic_value. rewrite linear1_batch by assumption. cbn [bind]. unfold mse.
  destruct (list_eq_dec Nat.eq_dec (shp (batch b 1 (map (fun x => [dot x w + bias]) xs))) (shp (per_sample b ys))) as [_|E]; [|exfalso; apply E; reflexivity].
  cbn [bind]. rewrite regularize_known. f_equal. unfold per_sample, batch, addc. cbn [shp dat]. f_equal.
  rewrite !concat_singletons, (concat_map_single (fun x => dot x w + bias)), map2_map_l, map_map2.
  clear. revert xs. induction ys as [|y ys IH]; intros [|x xs]; simpl; auto. rewrite IH, (dot_comm x). reflexivity.
Qed.

Lemma quadratic_flat_labels w bias xs ys : (2 <= length xs)%nat -> widths (length w) xs -> length ys = length xs ->
  exists vs, quadratic_value None w bias (batch [length xs] (length w) xs) (Some (mkT [length xs] ys)) = Ok (mkT [length xs; length xs] vs).
Proof.
  intros N W L. unfold quadratic_value. rewrite linear1_batch by (try exact W; simpl; lia). cbn [bind]. unfold mse. cbn [shp batch app].
  destruct (list_eq_dec Nat.eq_dec [length xs; 1%nat] [length xs]) as [E|_]; [discriminate|]. cbn [bind]. simpl. eexists. reflexivity.
Qed.
