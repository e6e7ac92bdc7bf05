(* Primal losses: the theorems of the properties. *)
From Coq Require Import Reals List Lra Lia Bool Arith.
From Verif Require Import PyBase RList XReal Tensor Loss_Model Loss_Spec DedProg_Model DedLog_Proofs Loss_Proofs.
Import ListNotations.
Local Open Scope R_scope.

(* ---------- C53 ---------- *)
Theorem C53_weights_are_a_portfolio raw : raw <> [] -> length (softmax raw) = length raw /\ Forall (fun a => 0 < a) (softmax raw) /\ rsum (softmax raw) = 1.
Proof. intros H. split; [apply softmax_length|]. exact (softmax_long_only raw H). Qed.
Print Assumptions C53_weights_are_a_portfolio.

(* Every portfolio with positive weights is the softmax of some parameters. *)
Theorem C53_every_portfolio_reachable w : Forall (fun a => 0 < a) w -> rsum w = 1 -> exists raw, softmax raw = w.
Proof. intros P S. exists (map ln w). apply softmax_onto. split; assumption. Qed.
Print Assumptions C53_every_portfolio_reachable.

Theorem C53_constructor_checks rho eta alpha reg n :
  (pf_init rho eta alpha reg n = Ok tt <-> 0 <= rho /\ 0 <= eta /\ 0 < alpha <= 1 /\ 0 <= reg /\ 0 <= n) /\
  (pf_init rho eta alpha reg n <> Ok tt -> pf_init rho eta alpha reg n = Raise ValueError).
Proof.
  unfold pf_init. split.
  - destruct (Rltb rho 0) eqn:E1; [rewrite Rltb_true in E1; split; [discriminate|lra]|rewrite Rltb_false in E1].
    destruct (Rltb eta 0) eqn:E2; [rewrite Rltb_true in E2; split; [discriminate|lra]|rewrite Rltb_false in E2].
    destruct (Rleb alpha 0) eqn:E3; simpl; [rewrite Rleb_true in E3; split; [discriminate|lra]|rewrite Rleb_false in E3].
    destruct (Rltb 1 alpha) eqn:E4; [rewrite Rltb_true in E4; split; [discriminate|lra]|rewrite Rltb_false in E4].
    destruct (Rltb reg 0) eqn:E5; [rewrite Rltb_true in E5; split; [discriminate|lra]|rewrite Rltb_false in E5].
    destruct (Rltb n 0) eqn:E6; [rewrite Rltb_true in E6; split; [discriminate|lra]|rewrite Rltb_false in E6].
    split; [intros _; lra|reflexivity].
  - destruct (Rltb rho 0); [auto|]. destruct (Rltb eta 0); [auto|]. destruct (Rleb alpha 0 || Rltb 1 alpha); [auto|].
    destruct (Rltb reg 0); [auto|]. destruct (Rltb n 0); [auto|]. congruence.
Qed.
Print Assumptions C53_constructor_checks.

(* three assets with weights 1/2, 1/4, 1/4 *)
Example C53_example : (exists raw, softmax raw = [1 / 2; 1 / 4; 1 / 4]) /\ pf_init 1 0 1 0 10 = Ok tt /\ pf_init 1 0 (3 / 2) 0 10 = Raise ValueError.
Proof.
  split; [|split].
  - apply C53_every_portfolio_reachable; [repeat (apply Forall_cons; [lra|]); apply Forall_nil|simpl; lra].
  - apply C53_constructor_checks. lra.
  - apply C53_constructor_checks. intros E. apply C53_constructor_checks in E. lra.
Qed.

(* ---------- C58 ---------- *)
(* Element by element, in the shape of the scores; labels are reshaped to it. *)
Theorem C58_values scores labels : length (dat labels) = prodl (shp scores) ->
  softmargin scores labels = Ok (mkT (shp scores) (map2 (fun y s => ln (1 + exp (- (y * s)))) (dat labels) (dat scores))).
Proof. exact (softmargin_ok scores labels). Qed.
Print Assumptions C58_values.

Theorem C58_sizes_must_agree scores labels : length (dat labels) <> prodl (shp scores) -> softmargin scores labels = Raise RuntimeError.
Proof. exact (softmargin_size scores labels). Qed.
Print Assumptions C58_sizes_must_agree.

(* ln(1+exp(-m)) as a function of the margin m *)
Theorem C58_shape_of_the_loss :
  (forall m, 0 < ln (1 + exp (- m))) /\
  (forall m m', m < m' -> ln (1 + exp (- m')) < ln (1 + exp (- m))) /\
  (forall t m m', 0 <= t <= 1 -> ln (1 + exp (- (t * m + (1 - t) * m'))) <= t * ln (1 + exp (- m)) + (1 - t) * ln (1 + exp (- m'))) /\
  (forall m m', Rabs (ln (1 + exp (- m)) - ln (1 + exp (- m'))) <= Rabs (m - m')) /\
  (forall y s, ln (1 + exp (- (y * s))) - ln (1 + exp (- (- y * s))) = - (y * s)).
Proof.
  split; [intros m; apply (lg_pos (- m))|]. split; [intros m m' H; apply (lg_strict (- m') (- m)); lra|]. split; [|split].
  - intros t m m' Ht. replace (- (t * m + (1 - t) * m')) with (t * - m + (1 - t) * - m') by ring. apply (lg_convex t (- m) (- m') Ht).
  - intros m m'. assert (G : forall a b, a <= b -> 0 <= ln (1 + exp b) - ln (1 + exp a) <= b - a).
    { intros a b H. pose proof (lg_mono a b H) as H1. pose proof (lg_shift a (b - a) ltac:(lra)) as H2. unfold cp_logistic in *. replace (a + (b - a)) with b in H2 by ring. lra. }
    destruct (Rle_dec m m') as [H|H].
    + pose proof (G (- m') (- m) ltac:(lra)). rewrite Rabs_pos_eq by lra. rewrite Rabs_left1 by lra. lra.
    + pose proof (G (- m) (- m') ltac:(lra)). rewrite Rabs_left1 by lra. rewrite Rabs_pos_eq by lra. lra.
  - intros y s. replace (- (- y * s)) with (y * s) by ring.
    pose proof (exp_pos (y * s)). assert (E : 1 + exp (y * s) = exp (y * s) * (1 + exp (- (y * s)))).
    { rewrite Rmult_plus_distr_l, <- exp_plus, Rplus_opp_r, exp_0. ring. }
    rewrite E, ln_mult, ln_exp by (try lra; pose proof (exp_pos (- (y * s))); lra). ring.
Qed.
Print Assumptions C58_shape_of_the_loss.

Example C58_example : softmargin (mkT [2%nat; 1%nat] [3; 0]) (mkT [2%nat] [1; -1]) = Ok (mkT [2%nat; 1%nat] [ln (1 + exp (- 3)); ln 2]) /\
  softmargin (mkT [2%nat; 1%nat] [3; 0]) (mkT [1%nat] [1]) = Raise RuntimeError.
Proof.
  split; [|apply C58_sizes_must_agree; simpl; lia]. rewrite C58_values by reflexivity. simpl. do 3 f_equal; [do 3 f_equal; ring|].
  f_equal. f_equal. replace (- (-1 * 0)) with 0 by ring. rewrite exp_0. lra.
Qed.

(* ---------- C59 ---------- *)
Theorem C59_newsvendor k u theta d b xs : (0 < d)%nat -> widths d xs -> prodl b = length xs ->
  nv_forward k u theta (batch b d xs) = per_sample b (map (fun x => rmean (map (fun a => k * theta - u * Rmin theta a) x)) xs).
Proof. exact (nv_forward_batch k u theta d b xs). Qed.
Print Assumptions C59_newsvendor.

Theorem C59_portfolio eta alpha raw tau b xs : widths (length raw) xs -> prodl b = length xs ->
  pf_forward eta alpha raw tau (batch b (length raw) xs)
  = Ok (per_sample b (map (fun x => - dot (softmax raw) x + eta * (tau + Rmax (- dot (softmax raw) x - tau) 0 / alpha)) xs)).
Proof. exact (pf_forward_batch eta alpha raw tau b xs). Qed.
Print Assumptions C59_portfolio.

Theorem C59_portfolio_convex eta alpha t w1 w2 tau1 tau2 x : 0 <= eta -> 0 < alpha -> 0 <= t <= 1 -> length w1 = length w2 -> length w2 = length x ->
  risk_loss eta alpha (vadd (vscal t w1) (vscal (1 - t) w2)) (t * tau1 + (1 - t) * tau2) x
  <= t * risk_loss eta alpha w1 tau1 x + (1 - t) * risk_loss eta alpha w2 tau2 x.
Proof. exact (risk_loss_convex eta alpha t w1 w2 tau1 tau2 x). Qed.
Print Assumptions C59_portfolio_convex.

(* Minimised over tau, the mean loss is the mean plus eta times the conditional value at risk, the minimum being attained. *)
Theorem C59_portfolio_is_mean_cvar eta alpha w xs : 0 <= eta -> 0 < alpha <= 1 -> xs <> [] ->
  exists tau cvar, is_cvar alpha (map (fun x => - dot w x) xs) cvar /\
    rmean (map (risk_loss eta alpha w tau) xs) = rmean (map (fun x => - dot w x) xs) + eta * cvar /\
    forall tau', rmean (map (fun x => - dot w x) xs) + eta * cvar <= rmean (map (risk_loss eta alpha w tau') xs).
Proof. exact (risk_loss_cvar eta alpha w xs). Qed.
Print Assumptions C59_portfolio_is_mean_cvar.

(* Flat batches, which is what the wrapper of the losses passes on. *)
Theorem C59_weber pos d xs ls : widths d xs -> length ls = length xs ->
  weber_forward pos (batch [length xs] d xs) (per_sample [length xs] ls) = Ok (per_sample [length xs] (map2 (fun l x => l * norm2 (vsub x pos)) ls xs)).
Proof.
  intros W L. rewrite (weber_batch pos d [length xs] xs ls W ltac:(simpl; lia) L ltac:(discriminate)). simpl. do 2 f_equal.
  clear. revert xs. induction ls as [|l ls IH]; intros [|x xs]; simpl; auto. rewrite IH. f_equal. ring.
Qed.
Print Assumptions C59_weber.

(* Any batch: the size of the second axis is an extra factor. *)
Theorem C59_weber_any_batch pos d n m b xs ls : widths d xs -> prodl (n :: m :: b) = length xs -> length ls = length xs ->
  weber_forward pos (batch (n :: m :: b) d xs) (per_sample (n :: m :: b) ls)
  = Ok (per_sample (n :: m :: b) (map2 (fun l x => l * norm2 (vsub x pos) * INR m) ls xs)).
Proof. intros W P L. exact (weber_batch pos d (n :: m :: b) xs ls W P L ltac:(discriminate)). Qed.
Print Assumptions C59_weber_any_batch.

(* Labels are read as a matrix: a vector of them is refused whatever the samples are, and so are labels that do not come one per sample. *)
Theorem C59_weber_refuses pos d b n xs ls : n <> length xs -> b <> [] ->
  weber_forward pos (batch b d xs) (mkT [length xs] ls) = Raise IndexError /\ weber_forward pos (batch [length xs] d xs) (per_sample [n] ls) = Raise RuntimeError.
Proof.
  intros N B. split; [reflexivity|]. unfold weber_forward, per_sample, batch. cbn [shp app removelast]. destruct (list_eq_dec Nat.eq_dec _ _) as [E|]; [injection E as E; contradiction|reflexivity].
Qed.
Print Assumptions C59_weber_refuses.
Example C59_weber_refuses_case : weber_forward [0] (batch [2%nat] 1 [[1]; [2]]) (mkT [2%nat] [3; 4]) = Raise IndexError.
Proof. apply (C59_weber_refuses [0] 1 [2%nat] 3 [[1]; [2]] [3; 4]); discriminate. Qed.

(* One sample of weight 1 at distance 1, seen twice: called directly on shape (1,2,1), forward returns 2 for each. *)
Theorem C59_weber_refuted : exists pos xs ls, weber_forward pos (batch [1%nat; 2%nat] 1 xs) (per_sample [1%nat; 2%nat] ls) = Ok (per_sample [1%nat; 2%nat] [2; 2]) /\
  map2 (fun l x => l * norm2 (vsub x pos)) ls xs = [1; 1].
Proof.
  exists [0], [[1]; [1]], [1; 1].
  assert (N : norm2 (vsub [1] [0]) = 1).
  { unfold norm2, sqnorm, dot, vsub. simpl. replace ((1 - 0) * (1 - 0) + 0) with 1 by ring. apply sqrt_1. }
  split.
  - rewrite (C59_weber_any_batch [0] 1 1 2 [] [[1]; [1]] [1; 1]) by (try reflexivity; repeat constructor). cbn [map2]. rewrite N. simpl INR. do 3 f_equal; [lra|]. f_equal. lra.
  - cbn [map2]. rewrite N. f_equal; [lra|]. f_equal. lra.
Qed.
Print Assumptions C59_weber_refuted.

(* two return scenarios on one asset, level 1/2: the conditional value at risk is the larger loss *)
Example C59_example : is_cvar (1 / 2) (map (fun x => - dot [1] x) [[-3]; [1]]) 3 /\
  nv_forward 1 2 5 (batch [2%nat] 1 [[3]; [8]]) = per_sample [2%nat] [-1; -5].
Proof.
  split.
  - split.
    + exists [1; 0]. split; [split; [reflexivity|split; [|simpl; ring]]|unfold dot; simpl; ring].
      simpl length. simpl INR. repeat (apply Forall_cons; [lra|]); apply Forall_nil.
    + intros q (L & F & S). destruct q as [|a [|b [|]]]; try discriminate. simpl INR in F.
      pose proof (Forall_inv F) as Fa. pose proof (Forall_inv (Forall_inv_tail F)) as Fb. simpl in S, Fa, Fb. unfold dot. simpl. lra.
  - rewrite C59_newsvendor by (try lia; try reflexivity; repeat constructor). f_equal. simpl. unfold rmean. simpl.
    rewrite (Rmin_right 5 3), (Rmin_left 5 8) by lra. f_equal; [field|]. f_equal. field.
Qed.

(* ---------- C60 ---------- *)
(* the constant that regularisation adds *)
Definition regularised_by (w : wrapped) (c : R) : Prop :=
  (w_l2 w = None /\ c = 0) \/
  (exists r th, w_l2 w = Some r /\ th = (if w_oop w then w_loss_params w ++ w_transform_params w else w_transform_params w) /\ th <> [] /\
     c = r / 2 * sqnorm (List.concat th)).

Lemma regularised_reg w c : regularised_by w c -> w_reg w = Some c.
Proof.
  unfold w_reg. intros [[-> ->]|(r & th & -> & E & N & ->)]; [reflexivity|]. unfold w_theta. rewrite <- E. destruct th as [|a th]; [congruence|]. f_equal.
  unfold sqnorm, dot. assert (G : forall l, rsum (map (fun a => a * a) l) = rsum (map2 Rmult l l)) by (induction l as [|x l IH]; simpl; [reflexivity|rewrite IH; reflexivity]).
  rewrite G. lra.
Qed.

(* Samples on two or more axes, labels on the same axes or flat: one value per sample, on the axes of the samples. *)
Theorem C60_zetas_labelled loss w c d dl k g b xs ys :
  regularised_by w c -> w_has_labels w = true -> w_reduce w = true -> (0 < k)%nat -> (forall x y, length (g x y) = k) -> rowwise_labelled loss d dl k g ->
  (2 <= length b)%nat -> prodl b = length xs -> widths d xs -> widths dl ys -> length xs = length ys ->
  w_value loss w (batch b d xs) (Some (batch b dl ys)) = Ok (per_sample b (map2 (fun x y => rmean (g x y) + c) xs ys)) /\
  w_value loss w (batch b d xs) (Some (batch [length xs] dl ys)) = Ok (per_sample b (map2 (fun x y => rmean (g x y) + c) xs ys)).
Proof. intros Hc HL Hr K Hg Hl. exact (labelled_zetas loss w c (regularised_reg w c Hc) d dl k g HL Hr K Hg Hl b xs ys). Qed.
Print Assumptions C60_zetas_labelled.

(* The same for losses without a trailing axis, with loss_reduces_spatial_dims=True; flat batches as well. *)
Theorem C60_no_trailing_axis loss w c d dl h b xs ys :
  regularised_by w c -> w_has_labels w = true -> w_reduce w = false -> rowwise_flat_labelled loss d dl h ->
  prodl b = length xs -> widths d xs -> widths dl ys -> length xs = length ys -> ((2 <= length b)%nat \/ (b = [length xs] /\ (2 <= length xs)%nat)) ->
  w_value loss w (batch b d xs) (Some (batch b dl ys)) = Ok (per_sample b (map2 (fun x y => h x y + c) xs ys)).
Proof.
  intros Hc HL Hr Hl P W1 W2 L [Hb|[-> N]].
  - exact (flat_zetas loss w c (regularised_reg w c Hc) d dl h HL Hr Hl b xs ys Hb P W1 W2 L).
  - exact (flat_batch loss w c (regularised_reg w c Hc) d dl h HL Hr Hl xs ys N W1 W2 L).
Qed.
Print Assumptions C60_no_trailing_axis.

Theorem C60_zetas_unlabelled loss w c d k g b xs :
  regularised_by w c -> w_has_labels w = false -> w_reduce w = true -> (0 < k)%nat -> (forall x, length (g x) = k) -> rowwise loss d k g ->
  (2 <= length b)%nat -> prodl b = length xs -> widths d xs ->
  w_value loss w (batch b d xs) None = Ok (per_sample b (map (fun x => rmean (g x) + c) xs)).
Proof. intros Hc HL Hr K Hg Hl. exact (unlabelled_zetas loss w c (regularised_reg w c Hc) d k g HL Hr K Hg Hl b xs). Qed.
Print Assumptions C60_zetas_unlabelled.

(* A single point gives a single number. *)
Theorem C60_point loss w c d dl k :
  regularised_by w c -> w_reduce w = true -> (0 < k)%nat ->
  (forall g x y, w_has_labels w = true -> (forall x y, length (g x y) = k) -> rowwise_labelled loss d dl k g -> length x = d -> length y = dl ->
     w_value loss w (mkT [d] x) (Some (mkT [dl] y)) = Ok (mkT [] [rmean (g x y) + c])) /\
  (forall g x, w_has_labels w = false -> (forall x, length (g x) = k) -> rowwise loss d k g -> length x = d ->
     w_value loss w (mkT [d] x) None = Ok (mkT [] [rmean (g x) + c])).
Proof.
  intros Hc Hr K. split.
  - intros g x y HL Hg Hl. exact (labelled_point loss w c (regularised_reg w c Hc) d dl k g HL Hr K Hg Hl x y).
  - intros g x HL Hg Hl. exact (unlabelled_point loss w c (regularised_reg w c Hc) d k g HL Hr K Hg Hl x).
Qed.
Print Assumptions C60_point.

(* Flat batches: unlabelled, one value per sample, without the trailing axis. *)
Theorem C60_flat_batch_unlabelled loss w c d k g xs :
  regularised_by w c -> w_has_labels w = false -> w_reduce w = true -> (0 < k)%nat -> (forall x, length (g x) = k) -> rowwise loss d k g ->
  (2 <= length xs)%nat -> widths d xs ->
  w_value loss w (batch [length xs] d xs) None = Ok (mkT [length xs] (map (fun x => rmean (g x) + c) xs)).
Proof. intros Hc HL Hr K Hg Hl. exact (unlabelled_batch loss w c (regularised_reg w c Hc) d k g HL Hr K Hg Hl xs). Qed.
Print Assumptions C60_flat_batch_unlabelled.

(* Flat batches: labelled, one value per sample when the loss has two or more values per sample, and only the batch mean when it has one. *)
Theorem C60_flat_batch_labelled loss w c d dl k g xs ys :
  regularised_by w c -> w_has_labels w = true -> w_reduce w = true -> (0 < k)%nat -> (forall x y, length (g x y) = k) -> rowwise_labelled loss d dl k g ->
  (2 <= length xs)%nat -> widths d xs -> widths dl ys -> length xs = length ys ->
  w_value loss w (batch [length xs] d xs) (Some (batch [length xs] dl ys))
  = Ok (if (k =? 1)%nat then mkT [1%nat] [rmean (map2 (fun x y => rmean (g x y) + c) xs ys)] else per_sample [length xs] (map2 (fun x y => rmean (g x y) + c) xs ys)).
Proof.
  intros Hc HL Hr K Hg Hl N W1 W2 L. destruct (k =? 1)%nat eqn:E.
  - apply Nat.eqb_eq in E. exact (labelled_batch_narrow loss w c (regularised_reg w c Hc) d dl k g HL Hr K Hg Hl xs ys E N W1 W2 L).
  - apply Nat.eqb_neq in E. exact (labelled_batch_wide loss w c (regularised_reg w c Hc) d dl k g HL Hr K Hg Hl xs ys ltac:(lia) N W1 W2 L).
Qed.
Print Assumptions C60_flat_batch_labelled.

Theorem C60_wrong_calls_raise loss w xi :
  (w_has_labels w = true -> w_value loss w xi None = Raise AssertionError) /\
  (forall y, w_has_labels w = false -> w_value loss w xi (Some y) = Raise AssertionError) /\
  (forall y, w_has_labels w = true -> (tdim xi <= 1)%nat -> tdim y <> tdim xi -> w_value loss w xi (Some y) = Raise NotImplementedError).
Proof. exact (w_errors loss w xi). Qed.
Print Assumptions C60_wrong_calls_raise.

(* ... and so do labels with fewer axes than data of three or more, or with more than data of two *)
Theorem C60_label_axes loss w xi y :
  w_has_labels w = true -> ((2 < tdim xi /\ tdim y < 2) \/ (tdim xi = 2 /\ 2 < tdim y))%nat -> w_value loss w xi (Some y) = Raise NotImplementedError.
Proof.
  intros Hl H. unfold w_value. rewrite Hl. destruct H as [[H1 H2]|[H1 H2]].
  - apply Nat.ltb_lt in H1 as E1. rewrite E1. assert (E2 : (2 <? tdim y)%nat = false) by (apply Nat.ltb_ge; lia). assert (E3 : (tdim y =? 2)%nat = false) by (apply Nat.eqb_neq; lia).
    assert (E4 : (tdim xi =? 2)%nat = false) by (apply Nat.eqb_neq; lia). assert (E5 : (tdim xi =? 1)%nat = false) by (apply Nat.eqb_neq; lia). rewrite E2, E3, E4, E5. reflexivity.
  - rewrite H1. assert (E2 : (tdim y <=? 2)%nat = false) by (apply Nat.leb_gt; lia). rewrite E2. reflexivity.
Qed.
Print Assumptions C60_label_axes.

Definition plain_wrapped (labelled : bool) : wrapped :=
  {| w_oop := true; w_has_labels := labelled; w_reduce := true; w_l2 := None; w_loss_params := []; w_transform_params := [[1]] |}.
(* exactly three pairs of numbers of axes are evaluated with labels, and everything but a scalar without *)
Theorem C60_refused_axes loss w xi :
  (forall y, w_has_labels w = true ->
     ~ ((2 < tdim xi /\ 2 <= tdim y) \/ (tdim xi = 2 /\ tdim y <= 2) \/ (tdim xi = 1 /\ tdim y = 1))%nat -> w_value loss w xi (Some y) = Raise NotImplementedError) /\
  (w_has_labels w = false -> tdim xi = 0%nat -> w_value loss w xi None = Raise NotImplementedError).
Proof.
  split.
  - intros y Hl H. unfold w_value. rewrite Hl. destruct (Nat.ltb_spec 2 (tdim xi)); destruct (Nat.ltb_spec 2 (tdim y)); cbn [andb]; try (exfalso; apply H; lia).
    all: destruct (Nat.eqb_spec (tdim y) 2); cbn [andb]; try (exfalso; apply H; lia).
    all: destruct (Nat.eqb_spec (tdim xi) 2); destruct (Nat.leb_spec (tdim y) 2); cbn [andb]; try (exfalso; apply H; lia).
    all: destruct (Nat.eqb_spec (tdim xi) 1); destruct (Nat.eqb_spec (tdim y) 1); cbn [andb]; try (exfalso; apply H; lia); reflexivity.
  - intros Hl H. unfold w_value. rewrite Hl, H. reflexivity.
Qed.
Print Assumptions C60_refused_axes.
Example C60_refused_axes_case : forall loss, w_value loss (plain_wrapped true) (mkT [2%nat] [1; 2]) (Some (mkT [1%nat; 1%nat] [1])) = Raise NotImplementedError /\
  w_value loss (plain_wrapped false) (mkT [] [3]) None = Raise NotImplementedError.
Proof.
  intros loss. split; [apply C60_refused_axes; [reflexivity|unfold tdim; simpl; lia]|]. apply (C60_refused_axes loss (plain_wrapped false) (mkT [] [3])); reflexivity.
Qed.

(* Only a positive l2reg regularises, and then there must be parameters. *)
Theorem C60_regularisation_switch l2 :
  (l2reg_of (Some l2) = (if Rlt_dec 0 l2 then Some l2 else None)) /\ l2reg_of None = None /\
  forall loss w xi y l, w_l2 w = Some l2 -> (w_oop w = false \/ w_loss_params w = []) -> w_transform_params w = [] -> loss xi y = Ok l ->
    flat_value loss w xi y = Raise RuntimeError.
Proof.
  split; [|split; [reflexivity|]].
  - unfold l2reg_of. destruct (Rleb l2 0) eqn:E; [rewrite Rleb_true in E|rewrite Rleb_false in E]; destruct (Rlt_dec 0 l2); try reflexivity; lra.
  - intros loss w xi y l E H1 H2 H3. apply (no_params_reg loss w xi y l); auto. rewrite E. discriminate.
Qed.
Print Assumptions C60_regularisation_switch.

(* the binary logistic loss after a linear map, as LogisticRegression wraps it *)
Definition bin_loss (wt : vec) (bias : R) (xi : tensor) (y : option tensor) : Result tensor :=
  match y with None => Raise TypeError | Some y => do s <- linear [wt] [bias] (length wt) xi; softmargin s y end.
Definition bin_wrapped (wt : vec) (bias : R) : wrapped :=
  {| w_oop := true; w_has_labels := true; w_reduce := true; w_l2 := None; w_loss_params := []; w_transform_params := [wt; [bias]] |}.

Lemma bin_rowwise wt bias : rowwise_labelled (bin_loss wt bias) (length wt) 1 1 (fun x y => [ln (1 + exp (- (hd 0 y * (dot wt x + bias))))]).
Proof.
  intros xs ys W1 W2 L. assert (Ey : batch [length xs] 1 ys = per_sample [length xs] (map (hd 0) ys)).
  { unfold per_sample. f_equal. rewrite map_map. rewrite <- (map_id ys) at 1. apply map_ext_in. intros y Hy. unfold widths in W2. rewrite Forall_forall in W2. specialize (W2 y Hy). destruct y as [|a [|]]; try discriminate. reflexivity. }
  rewrite Ey. unfold bin_loss. rewrite linear1_batch by (try exact W1; simpl; lia). cbn [bind]. rewrite softmargin_ok.
  - unfold per_sample, batch. cbn [shp dat]. do 2 f_equal. rewrite concat_singletons, (concat_map_single (fun x => dot x wt + bias)), map2_map_l, map2_map_r.
    clear. revert ys. induction xs as [|x xs IH]; intros [|y ys]; simpl; auto. rewrite IH, (dot_comm x). reflexivity.
  - unfold per_sample, batch. cbn [shp dat]. rewrite concat_singletons, map_length. simpl. rewrite <- L. lia.
Qed.

(* Two labelled observations evaluated as a plain batch: the wrapped logistic loss returns one number, not two. *)
Theorem C60_flat_batch_labelled_refuted : exists loss w c xs ys g,
  regularised_by w c /\ w_has_labels w = true /\ w_reduce w = true /\ rowwise_labelled loss 1 1 1 g /\ widths 1 xs /\ widths 1 ys /\ length xs = 2%nat /\ length ys = 2%nat /\
  w_value loss w (batch [2%nat] 1 xs) (Some (batch [2%nat] 1 ys)) = Ok (mkT [1%nat] [ln 2]) /\
  w_value loss w (batch [2%nat] 1 xs) (Some (batch [2%nat] 1 ys)) <> Ok (per_sample [2%nat] (map2 (fun x y => rmean (g x y) + c) xs ys)).
Proof.
  set (g := fun x y : vec => [ln (1 + exp (- (hd 0 y * (dot [0] x + 0))))]).
  assert (Hw : regularised_by (bin_wrapped [0] 0) 0) by (left; split; reflexivity).
  assert (Hl : rowwise_labelled (bin_loss [0] 0) 1 1 1 g) by exact (bin_rowwise [0] 0).
  assert (E : w_value (bin_loss [0] 0) (bin_wrapped [0] 0) (batch [2%nat] 1 [[1]; [2]]) (Some (batch [2%nat] 1 [[1]; [-1]])) = Ok (mkT [1%nat] [ln 2])).
  { pose proof (C60_flat_batch_labelled (bin_loss [0] 0) (bin_wrapped [0] 0) 0 1 1 1 g [[1]; [2]] [[1]; [-1]] Hw eq_refl eq_refl ltac:(lia) ltac:(intros; reflexivity) Hl
      ltac:(simpl; lia) ltac:(repeat constructor) ltac:(repeat constructor) eq_refl) as H. cbn [length] in H. rewrite H. clear H. simpl Nat.eqb. cbv iota. do 3 f_equal.
    unfold g. simpl. unfold rmean, dot. simpl.
    replace (- (1 * (0 * 1 + 0 + 0))) with 0 by ring. replace (- (-1 * (0 * 2 + 0 + 0))) with 0 by ring. rewrite exp_0. replace (1 + 1) with 2 by ring. field. }
  exists (bin_loss [0] 0), (bin_wrapped [0] 0), 0, [[1]; [2]], [[1]; [-1]], g.
  split; [exact Hw|]. split; [reflexivity|]. split; [reflexivity|]. split; [exact Hl|]. split; [repeat constructor|]. split; [repeat constructor|]. split; [reflexivity|]. split; [reflexivity|].
  split; [exact E|]. rewrite E. intros H. discriminate.
Qed.
Print Assumptions C60_flat_batch_labelled_refuted.

(* one value per sample for the inputs of the dual: two centres, one zeta each *)
Example C60_example :
  w_value (bin_loss [1] 0) (bin_wrapped [1] 0) (batch [1%nat; 2%nat] 1 [[0]; [3]]) (Some (batch [1%nat; 2%nat] 1 [[1]; [1]]))
  = Ok (per_sample [1%nat; 2%nat] [ln 2; ln (1 + exp (- 3))]).
Proof.
  destruct (C60_zetas_labelled (bin_loss [1] 0) (bin_wrapped [1] 0) 0 1 1 1 (fun x y => [ln (1 + exp (- (hd 0 y * (dot [1] x + 0))))]) [1%nat; 2%nat] [[0]; [3]] [[1]; [1]] ltac:(left; split; reflexivity) eq_refl eq_refl
    ltac:(lia) ltac:(intros; reflexivity) (bin_rowwise [1] 0) ltac:(simpl; lia) eq_refl ltac:(repeat constructor) ltac:(repeat constructor) eq_refl) as [H _].
  rewrite H. clear H. do 2 f_equal. simpl. unfold rmean, dot. simpl. f_equal; [|f_equal].
  - replace (- (1 * (1 * 0 + 0 + 0))) with 0 by ring. rewrite exp_0. replace (1 + 1) with 2 by ring. field.
  - replace (- (1 * (1 * 3 + 0 + 0))) with (- 3) by ring. field.
Qed.

(* ---------- C77 ---------- *)
Theorem C77_logistic_per_sample l2 w bias b xs ys : widths (length w) xs -> prodl b = length xs -> length ys = length xs ->
  logistic_value l2 w bias (batch b (length w) xs) (Some (per_sample b ys))
  = Ok (per_sample b (map2 (fun y x => ln (1 + exp (- (y * (dot w x + bias)))) + match l2 with Some r => r / 2 * sqnorm w | None => 0 end) ys xs)).
Proof.
  intros W P L. rewrite (logistic_batch l2 w bias b xs ys W P L). do 2 f_equal. assert (E : l2_add l2 w = match l2 with Some r => r / 2 * sqnorm w | None => 0 end).
  { destruct l2; [|reflexivity]. simpl. unfold sqnorm, dot. assert (G : forall l, rsum (map (fun a => a * a) l) = rsum (map2 Rmult l l)) by (induction l as [|x l IH]; simpl; [reflexivity|rewrite IH; reflexivity]).
    rewrite G. lra. }
  rewrite E. reflexivity.
Qed.
Print Assumptions C77_logistic_per_sample.

Theorem C77_quadratic_per_sample l2 w bias b xs ys : widths (length w) xs -> prodl b = length xs -> length ys = length xs ->
  quadratic_value l2 w bias (batch b (length w) xs) (Some (per_sample b ys))
  = Ok (per_sample b (map2 (fun y x => (dot w x + bias - y) * (dot w x + bias - y) + match l2 with Some r => r / 2 * sqnorm w | None => 0 end) ys xs)).
Proof.
  intros W P L. rewrite (quadratic_batch l2 w bias b xs ys W P L). do 2 f_equal. assert (E : l2_add l2 w = match l2 with Some r => r / 2 * sqnorm w | None => 0 end).
  { destruct l2; [|reflexivity]. simpl. unfold sqnorm, dot. assert (G : forall l, rsum (map (fun a => a * a) l) = rsum (map2 Rmult l l)) by (induction l as [|x l IH]; simpl; [reflexivity|rewrite IH; reflexivity]).
    rewrite G. lra. }
  rewrite E. reflexivity.
Qed.
Print Assumptions C77_quadratic_per_sample.

(* With labels of shape (N,), the usual one, the quadratic loss is a matrix of all pairs, and its mean mixes the samples:
   two observations fitted exactly have a mean loss of 1/2. *)
Theorem C77_flat_labels_refuted : exists w xs ys vs, widths (length w) xs /\ map2 (fun y x => (dot w x + 0 - y) * (dot w x + 0 - y)) ys xs = [0; 0] /\
  quadratic_value None w 0 (batch [2%nat] 1 xs) (Some (mkT [2%nat] ys)) = Ok (mkT [2%nat; 2%nat] vs) /\ rmean vs = 1 / 2.
Proof.
  exists [1], [[0]; [1]], [0; 1]. unfold quadratic_value, batch. simpl. eexists. split; [repeat constructor|]. split; [unfold dot; simpl; f_equal; [ring|f_equal; ring]|].
  split; [reflexivity|]. unfold rmean, dot. simpl. field.
Qed.
Print Assumptions C77_flat_labels_refuted.

Example C77_example : quadratic_value (Some 2) [3] 1 (batch [2%nat] 1 [[0]; [1]]) (Some (per_sample [2%nat] [1; 2])) = Ok (per_sample [2%nat] [9; 13]).
Proof.
  etransitivity; [exact (C77_quadratic_per_sample (Some 2) [3] 1 [2%nat] [[0]; [1]] [1; 2] ltac:(repeat constructor) eq_refl eq_refl)|]. do 2 f_equal. simpl. unfold sqnorm, dot. simpl. f_equal; [field|]. f_equal. field.
Qed.

(* ---------- C78 ---------- *)
(* NewsVendorLoss_torch has no labels, but can only be evaluated with some; they are then ignored. *)
Theorem C78_value_with_labels k u theta d b xs y : (0 < d)%nat -> widths d xs -> prodl b = length xs ->
  nv_torch_value k u theta (batch b d xs) (Some y) = Ok (per_sample b (map (fun x => rmean (map (fun a => k * theta - u * Rmin theta a) x)) xs)).
Proof.
  intros D W P. unfold nv_torch_value. f_equal.
  assert (E : tmap (Rmin theta) (batch b d xs) = batch b d (map (map (Rmin theta)) xs)) by (unfold tmap, batch; simpl; rewrite concat_map; reflexivity).
  rewrite E, mean_last_batch by (try (apply widths_map; exact W); rewrite map_length; exact P). unfold tmap, per_sample, batch. cbn [shp dat]. rewrite !concat_singletons, !map_map. f_equal.
  apply map_ext_in. intros x Hx. unfold widths in W. rewrite Forall_forall in W. specialize (W x Hx). assert (N : x <> []) by (destruct x; [simpl in W; lia|discriminate]).
  rewrite (rmean_map_minus (fun _ => k * theta) (fun a => u * Rmin theta a)), rmean_map_const, rmean_map_scal by exact N. reflexivity.
Qed.
Print Assumptions C78_value_with_labels.

Theorem C78_newsvendor_loss_refuted : exists k u theta xi, nv_torch_value k u theta xi None = Raise AssertionError /\
  nv_forward k u theta xi = per_sample [1%nat] [-1].
Proof.
  exists 1, 2, 5, (batch [1%nat] 1 [[3]]). split; [reflexivity|]. rewrite C59_newsvendor by (try lia; try reflexivity; repeat constructor). f_equal. simpl. unfold rmean. simpl. rewrite Rmin_right by lra. f_equal. field.
Qed.
Print Assumptions C78_newsvendor_loss_refuted.

Example C78_example : nv_torch_value 1 2 5 (batch [2%nat] 1 [[3]; [8]]) (Some (mkT [] [0])) = Ok (per_sample [2%nat] [-1; -5]).
Proof.
  rewrite C78_value_with_labels by (try lia; try reflexivity; repeat constructor). do 2 f_equal. simpl. unfold rmean. simpl. rewrite (Rmin_right 5 3), (Rmin_left 5 8) by lra. f_equal; [field|]. f_equal. field.
Qed.

(* the loss classes refuse to be evaluated without labels *)
Theorem C77_labels_required l2 w bias xi : logistic_value l2 w bias xi None = Raise AssertionError /\ quadratic_value l2 w bias xi None = Raise AssertionError.
Proof. split; reflexivity. Qed.
Print Assumptions C77_labels_required.

(* ---------- concrete cases of the theorems above, one each ---------- *)
Example C53_weights_are_a_portfolio_case : length (softmax [3; -1]) = 2%nat /\ Forall (fun a => 0 < a) (softmax [3; -1]) /\ rsum (softmax [3; -1]) = 1.
Proof. apply (C53_weights_are_a_portfolio [3; -1]). discriminate. Qed.
Example C53_every_portfolio_reachable_case : exists raw, softmax raw = [1 / 5; 4 / 5].
Proof. apply C53_every_portfolio_reachable; [repeat (apply Forall_cons; [lra|]); apply Forall_nil|simpl; lra]. Qed.
Example C53_constructor_checks_case : pf_init 1 (1 / 2) (1 / 20) 0 10 = Ok tt /\ pf_init 1 (1 / 2) 0 0 10 = Raise ValueError.
Proof. split; apply C53_constructor_checks; [lra|]. intros H. apply C53_constructor_checks in H. lra. Qed.
Example C58_values_case : softmargin (mkT [2%nat; 1%nat] [3; 5]) (mkT [2%nat] [1; -1]) = Ok (mkT [2%nat; 1%nat] [ln (1 + exp (- (1 * 3))); ln (1 + exp (- (-1 * 5)))]).
Proof. apply (C58_values (mkT [2%nat; 1%nat] [3; 5]) (mkT [2%nat] [1; -1])). reflexivity. Qed.
Example C58_sizes_must_agree_case : softmargin (mkT [2%nat; 1%nat] [3; 5]) (mkT [3%nat] [1; -1; 1]) = Raise RuntimeError.
Proof. apply C58_sizes_must_agree. discriminate. Qed.
Example C58_shape_of_the_loss_case : ln (1 + exp (- (2))) < ln (1 + exp (- (1))).
Proof. apply C58_shape_of_the_loss. lra. Qed.
Example C59_newsvendor_case : nv_forward 1 2 5 (batch [1%nat; 2%nat] 2 [[3; 8]; [6; 7]]) =
  per_sample [1%nat; 2%nat] [rmean [1 * 5 - 2 * Rmin 5 3; 1 * 5 - 2 * Rmin 5 8]; rmean [1 * 5 - 2 * Rmin 5 6; 1 * 5 - 2 * Rmin 5 7]].
Proof. apply (C59_newsvendor 1 2 5 2 [1%nat; 2%nat] [[3; 8]; [6; 7]]); [lia|repeat constructor|reflexivity]. Qed.
Example C59_portfolio_case : pf_forward (1 / 2) (1 / 4) [0; 1] 3 (batch [1%nat] 2 [[3; 8]]) =
  Ok (per_sample [1%nat] [- dot (softmax [0; 1]) [3; 8] + 1 / 2 * (3 + Rmax (- dot (softmax [0; 1]) [3; 8] - 3) 0 / (1 / 4))]).
Proof. apply (C59_portfolio (1 / 2) (1 / 4) [0; 1] 3 [1%nat] [[3; 8]]); [repeat constructor|reflexivity]. Qed.
Example C59_portfolio_convex_case :
  risk_loss 1 (1 / 2) (vadd (vscal (1 / 3) [1; 0]) (vscal (1 - 1 / 3) [0; 1])) (1 / 3 * 2 + (1 - 1 / 3) * -4) [5; -6] <= 1 / 3 * risk_loss 1 (1 / 2) [1; 0] 2 [5; -6] + (1 - 1 / 3) * risk_loss 1 (1 / 2) [0; 1] (-4) [5; -6].
Proof. apply C59_portfolio_convex; [lra|lra|lra|reflexivity|reflexivity]. Qed.
Example C59_portfolio_is_mean_cvar_case : exists tau cvar, is_cvar (1 / 2) (map (fun x => - dot [1] x) [[-3]; [1]]) cvar /\
  rmean (map (risk_loss 2 (1 / 2) [1] tau) [[-3]; [1]]) = rmean (map (fun x => - dot [1] x) [[-3]; [1]]) + 2 * cvar.
Proof. destruct (C59_portfolio_is_mean_cvar 2 (1 / 2) [1] [[-3]; [1]]) as (tau & c & A & B & _); [lra|lra|discriminate|]. exists tau, c. tauto. Qed.
Example C59_weber_case : weber_forward [1; 1] (batch [2%nat] 2 [[1; 4]; [5; 1]]) (per_sample [2%nat] [2; 3]) = Ok (per_sample [2%nat] [2 * norm2 (vsub [1; 4] [1; 1]); 3 * norm2 (vsub [5; 1] [1; 1])]).
Proof. apply (C59_weber [1; 1] 2 [[1; 4]; [5; 1]] [2; 3]); [repeat constructor|reflexivity]. Qed.
(* three centres, one zeta each: every value is multiplied by three *)
Example C59_weber_any_batch_case : weber_forward [1] (batch [1%nat; 3%nat] 1 [[1]; [2]; [3]]) (per_sample [1%nat; 3%nat] [1; 1; 2]) =
  Ok (per_sample [1%nat; 3%nat] [1 * norm2 (vsub [1] [1]) * INR 3; 1 * norm2 (vsub [2] [1]) * INR 3; 2 * norm2 (vsub [3] [1]) * INR 3]).
Proof. apply (C59_weber_any_batch [1] 1 1 3 [] [[1]; [2]; [3]] [1; 1; 2]); [repeat constructor|reflexivity|reflexivity]. Qed.
(* a regularised logistic loss: the weights [3] and the bias 4 add 2/2*(9+16) *)
Definition reg_wrapped : wrapped :=
  {| w_oop := true; w_has_labels := true; w_reduce := true; w_l2 := Some 2; w_loss_params := []; w_transform_params := [[3]; [4]] |}.
Lemma reg_wrapped_25 : regularised_by reg_wrapped 25.
Proof. right. exists 2, [[3]; [4]]. split; [reflexivity|]. split; [reflexivity|]. split; [discriminate|]. unfold sqnorm, dot. simpl. lra. Qed.
Definition row34 (x y : vec) : vec := [ln (1 + exp (- (hd 0 y * (dot [3] x + 4))))].
Example C60_zetas_labelled_case :
  w_value (bin_loss [3] 4) reg_wrapped (batch [1%nat; 2%nat] 1 [[0]; [3]]) (Some (batch [1%nat; 2%nat] 1 [[1]; [1]])) = Ok (per_sample [1%nat; 2%nat] [rmean (row34 [0] [1]) + 25; rmean (row34 [3] [1]) + 25]).
Proof.
  refine (proj1 (C60_zetas_labelled (bin_loss [3] 4) reg_wrapped 25 1 1 1 row34 [1%nat; 2%nat] [[0]; [3]] [[1]; [1]] reg_wrapped_25 eq_refl eq_refl _ _ (bin_rowwise [3] 4) _ _ _ _ _));
    try reflexivity; try lia; try (simpl; lia); repeat constructor.
Qed.
(* one number per row, without trailing axis: the product of a scalar input and its label *)
Definition flat_loss (xi : tensor) (y : option tensor) : Result tensor :=
  match y with None => Raise TypeError | Some y => Ok (mkT [hd 0%nat (shp xi)] (map2 Rmult (dat xi) (dat y))) end.
Definition flat_wrapped : wrapped := {| w_oop := true; w_has_labels := true; w_reduce := false; w_l2 := None; w_loss_params := []; w_transform_params := [] |}.
Lemma flat_rowwise : rowwise_flat_labelled flat_loss 1 1 (fun x y => hd 0 x * hd 0 y).
Proof.
  intros xs ys A B L. unfold flat_loss, batch. cbn [shp dat hd]. do 2 f_equal. clear L. revert ys B. induction A as [|x xs Hx A IH]; intros ys B; [reflexivity|].
  destruct x as [|x [|]]; try discriminate. cbn [List.concat List.app hd]. destruct B as [|y ys Hy B]; [reflexivity|]. destruct y as [|y [|]]; try discriminate. cbn. now rewrite IH.
Qed.
Example C60_no_trailing_axis_case : w_value flat_loss flat_wrapped (batch [2%nat] 1 [[3]; [4]]) (Some (batch [2%nat] 1 [[5]; [6]])) = Ok (per_sample [2%nat] [3 * 5 + 0; 4 * 6 + 0]).
Proof.
  refine (C60_no_trailing_axis flat_loss flat_wrapped 0 1 1 _ [2%nat] [[3]; [4]] [[5]; [6]] (or_introl (conj eq_refl eq_refl)) eq_refl eq_refl flat_rowwise eq_refl _ _ eq_refl (or_intror (conj eq_refl _)));
    [repeat constructor|repeat constructor|simpl; lia].
Qed.
Definition nv_wrapped : wrapped := {| w_oop := true; w_has_labels := false; w_reduce := true; w_l2 := None; w_loss_params := [[5]]; w_transform_params := [] |}.
Definition nv_loss (xi : tensor) (y : option tensor) : Result tensor := Ok (nv_forward 1 2 5 xi).
Definition nv_row (x : vec) : vec := [rmean (map (fun a => 1 * 5 - 2 * Rmin 5 a) x)].
Lemma nv_rowwise : rowwise nv_loss 1 1 nv_row.
Proof.
  intros xs A. unfold nv_loss. rewrite (C59_newsvendor 1 2 5 1 [length xs] xs) by (try lia; try exact A; simpl; lia).
  unfold per_sample. rewrite map_map. reflexivity.
Qed.
Example C60_zetas_unlabelled_case : w_value nv_loss nv_wrapped (batch [2%nat; 1%nat] 1 [[3]; [8]]) None = Ok (per_sample [2%nat; 1%nat] [rmean (nv_row [3]) + 0; rmean (nv_row [8]) + 0]).
Proof.
  refine (C60_zetas_unlabelled nv_loss nv_wrapped 0 1 1 nv_row [2%nat; 1%nat] [[3]; [8]] (or_introl (conj eq_refl eq_refl)) eq_refl eq_refl _ _ nv_rowwise _ eq_refl _); try reflexivity; try lia; try (simpl; lia). repeat constructor.
Qed.
Example C60_point_case : w_value (bin_loss [3] 4) reg_wrapped (mkT [1%nat] [2]) (Some (mkT [1%nat] [-1])) = Ok (mkT [] [rmean (row34 [2] [-1]) + 25]) /\
  w_value nv_loss nv_wrapped (mkT [1%nat] [8]) None = Ok (mkT [] [rmean (nv_row [8]) + 0]).
Proof.
  split.
  - exact (proj1 (C60_point (bin_loss [3] 4) reg_wrapped 25 1 1 1 reg_wrapped_25 eq_refl ltac:(lia)) row34 [2] [-1] eq_refl (fun _ _ => eq_refl) (bin_rowwise [3] 4) eq_refl eq_refl).
  - exact (proj2 (C60_point nv_loss nv_wrapped 0 1 1 1 (or_introl (conj eq_refl eq_refl)) eq_refl ltac:(lia)) nv_row [8] eq_refl (fun _ => eq_refl) nv_rowwise eq_refl).
Qed.
Example C60_flat_batch_unlabelled_case : w_value nv_loss nv_wrapped (batch [2%nat] 1 [[3]; [8]]) None = Ok (mkT [2%nat] [rmean (nv_row [3]) + 0; rmean (nv_row [8]) + 0]).
Proof.
  refine (C60_flat_batch_unlabelled nv_loss nv_wrapped 0 1 1 nv_row [[3]; [8]] (or_introl (conj eq_refl eq_refl)) eq_refl eq_refl _ _ nv_rowwise _ _); try reflexivity; try lia; try (simpl; lia). repeat constructor.
Qed.
Example C60_flat_batch_labelled_case :
  w_value (bin_loss [3] 4) reg_wrapped (batch [2%nat] 1 [[0]; [3]]) (Some (batch [2%nat] 1 [[1]; [1]])) = Ok (mkT [1%nat] [rmean [rmean (row34 [0] [1]) + 25; rmean (row34 [3] [1]) + 25]]).
Proof.
  refine (C60_flat_batch_labelled (bin_loss [3] 4) reg_wrapped 25 1 1 1 row34 [[0]; [3]] [[1]; [1]] reg_wrapped_25 eq_refl eq_refl _ _ (bin_rowwise [3] 4) _ _ _ _);
    try reflexivity; try lia; try (simpl; lia); repeat constructor.
Qed.
Example C60_wrong_calls_raise_case : w_value (bin_loss [3] 4) reg_wrapped (batch [2%nat] 1 [[0]; [3]]) None = Raise AssertionError /\
  w_value nv_loss nv_wrapped (batch [2%nat] 1 [[3]; [8]]) (Some (batch [2%nat] 1 [[3]; [8]])) = Raise AssertionError /\
  w_value (bin_loss [3] 4) reg_wrapped (mkT [1%nat] [2]) (Some (mkT [1%nat; 1%nat] [-1])) = Raise NotImplementedError.
Proof. split; [apply C60_wrong_calls_raise; reflexivity|]. split; apply C60_wrong_calls_raise; try reflexivity; try (simpl; lia); discriminate. Qed.
Example C60_regularisation_switch_case : l2reg_of (Some (-1)) = None /\ l2reg_of (Some 2) = Some 2 /\
  flat_value flat_loss {| w_oop := true; w_has_labels := true; w_reduce := false; w_l2 := Some 2; w_loss_params := []; w_transform_params := [] |} (batch [2%nat] 1 [[3]; [4]]) (Some (batch [2%nat] 1 [[5]; [6]])) = Raise RuntimeError.
Proof.
  split; [rewrite (proj1 (C60_regularisation_switch (-1))); destruct (Rlt_dec 0 (-1)); [exfalso; lra|reflexivity]|].
  split; [rewrite (proj1 (C60_regularisation_switch 2)); destruct (Rlt_dec 0 2); [reflexivity|exfalso; lra]|].
  eapply (proj2 (proj2 (C60_regularisation_switch 2)) flat_loss); [reflexivity|right; reflexivity|reflexivity|reflexivity].
Qed.
Example C77_logistic_per_sample_case : logistic_value (Some 2) [3] 4 (batch [2%nat] 1 [[0]; [1]]) (Some (per_sample [2%nat] [1; -1])) =
  Ok (per_sample [2%nat] [ln (1 + exp (- (1 * (dot [3] [0] + 4)))) + 2 / 2 * sqnorm [3]; ln (1 + exp (- (-1 * (dot [3] [1] + 4)))) + 2 / 2 * sqnorm [3]]).
Proof. apply (C77_logistic_per_sample (Some 2) [3] 4 [2%nat] [[0]; [1]] [1; -1]); [repeat constructor|reflexivity|reflexivity]. Qed.
Example C77_quadratic_per_sample_case : quadratic_value None [3] 4 (batch [2%nat] 1 [[0]; [1]]) (Some (per_sample [2%nat] [1; -1])) =
  Ok (per_sample [2%nat] [(dot [3] [0] + 4 - 1) * (dot [3] [0] + 4 - 1) + 0; (dot [3] [1] + 4 - -1) * (dot [3] [1] + 4 - -1) + 0]).
Proof. apply (C77_quadratic_per_sample None [3] 4 [2%nat] [[0]; [1]] [1; -1]); [repeat constructor|reflexivity|reflexivity]. Qed.
Example C77_labels_required_case : logistic_value (Some 2) [3] 4 (batch [2%nat] 1 [[0]; [1]]) None = Raise AssertionError.
Proof. apply C77_labels_required. Qed.
Example C78_value_with_labels_case : nv_torch_value 1 2 5 (batch [1%nat] 2 [[3; 8]]) (Some (mkT [] [0])) = Ok (per_sample [1%nat] [rmean [1 * 5 - 2 * Rmin 5 3; 1 * 5 - 2 * Rmin 5 8]]).
Proof. apply (C78_value_with_labels 1 2 5 2 [1%nat] [[3; 8]]); [lia|repeat constructor|reflexivity]. Qed.

Example C60_label_axes_case : forall loss, w_value loss (bin_wrapped [1; 2] 0) (mkT [2%nat; 2%nat; 2%nat] [1; 2; 3; 4; 5; 6; 7; 8]) (Some (mkT [2%nat] [1; -1])) = Raise NotImplementedError.
Proof. intros loss. apply C60_label_axes; [reflexivity|left; split; unfold tdim; simpl; lia]. Qed.

(* Labels for another number of samples are refused, once there are two of each (with one, torch repeats it; not modelled). *)
Theorem C77_label_count l2 w bias xs ys : widths (length w) xs -> (2 <= length xs)%nat -> (2 <= length ys)%nat -> length ys <> length xs ->
  quadratic_value l2 w bias (batch [length xs] (length w) xs) (Some (per_sample [length ys] ys)) = Raise RuntimeError.
Proof.
  intros W N1 N2 E. unfold quadratic_value. rewrite linear1_batch by (try exact W; simpl; lia). cbn [bind]. unfold mse, per_sample. cbn [shp batch app].
  match goal with |- context [list_eq_dec ?a ?b ?c] => destruct (list_eq_dec a b c) as [Q|_] end; [injection Q as Q; unfold vec in *; congruence|].
  cbn [bind]. reflexivity.
Qed.
Print Assumptions C77_label_count.
Example C77_label_count_case : widths (length [1]) [[1]; [2]; [3]] /\ length [4; 5] <> length [[1]; [2]; [3]].
Proof. split; [repeat constructor|discriminate]. Qed.
