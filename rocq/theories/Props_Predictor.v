(* C133: the predictions of LogisticLoss and QuadraticLoss agree with their losses and with the estimator; new objects. *)
From Coq Require Import Reals List Bool ZArith Arith Lra Lia.
From Verif Require Import PyBase RList XReal Tensor Loss_Model Loss_Spec Loss_Proofs Predictor_Model Predict_Model Predict_Proofs Props_Loss Props_Estim.
Import ListNotations.
Local Open Scope R_scope.

(* ---------- lemmas ---------- *)
Lemma tanh_exp a : tanh a = (exp a - exp (- a)) / (exp a + exp (- a)).
Proof. unfold tanh, sinh, cosh. pose proof (exp_pos a). pose proof (exp_pos (- a)). field. lra. Qed.
Lemma tanh_range a : -1 < tanh a < 1.
Proof.
  rewrite tanh_exp. pose proof (exp_pos a). pose proof (exp_pos (- a)). assert (0 < exp a + exp (- a)) by lra. split.
  - apply Rmult_lt_reg_r with (exp a + exp (- a)); [lra|]. unfold Rdiv. rewrite Rmult_assoc, Rinv_l; lra.
  - apply Rmult_lt_reg_r with (exp a + exp (- a)); [lra|]. unfold Rdiv. rewrite Rmult_assoc, Rinv_l; lra.
Qed.
Lemma tanh_incr a b : a < b -> tanh a < tanh b.
Proof.
  intros H. rewrite !tanh_exp. pose proof (exp_pos a). pose proof (exp_pos (- a)). pose proof (exp_pos b). pose proof (exp_pos (- b)).
  assert (E1 : exp a < exp b) by (apply exp_increasing; exact H). assert (E2 : exp (- b) < exp (- a)) by (apply exp_increasing; lra).
  apply Rmult_lt_reg_r with (exp a + exp (- a)); [lra|]. apply Rmult_lt_reg_r with (exp b + exp (- b)); [lra|].
  replace ((exp a - exp (- a)) / (exp a + exp (- a)) * (exp a + exp (- a)) * (exp b + exp (- b))) with ((exp a - exp (- a)) * (exp b + exp (- b))) by (field; lra).
  replace ((exp b - exp (- b)) / (exp b + exp (- b)) * (exp a + exp (- a)) * (exp b + exp (- b))) with ((exp b - exp (- b)) * (exp a + exp (- a))) by (field; lra).
  nra.
Qed.
Lemma tanh_sign a : 0 <= tanh a <-> 0 <= a.
Proof.
  assert (Z : tanh 0 = 0) by (rewrite tanh_exp, Ropp_0, exp_0; field). split; intros H.
  - destruct (Rle_lt_dec 0 a) as [P|P]; [exact P|]. apply tanh_incr in P. lra.
  - destruct H as [P|<-]; [apply tanh_incr in P; lra|lra].
Qed.
Lemma softplus_diff s : ln (1 + exp (- (-1 * s))) - ln (1 + exp (- (1 * s))) = s.
Proof.
  replace (- (-1 * s)) with s by ring. replace (- (1 * s)) with (- s) by ring. pose proof (exp_pos s). pose proof (exp_pos (- s)).
  assert (E : 1 + exp s = exp s * (1 + exp (- s))) by (rewrite Rmult_plus_distr_l, <- exp_plus, Rplus_opp_r, exp_0; ring).
  rewrite E, ln_mult, ln_exp by lra. ring.
Qed.
Lemma predict_batch g b xs : widths (length (g_weight g)) xs -> prodl b = length xs ->
  logistic_predict g (batch b (length (g_weight g)) xs) = Ok (per_sample b (map (fun x => tanh (dot (g_weight g) x + bias_of g)) xs)).
Proof.
  intros W P. unfold logistic_predict. rewrite linear1_batch by assumption. cbn [bind]. unfold per_sample, batch, tmap. cbn [shp dat]. do 2 f_equal.
  rewrite (concat_map_single (fun x => dot x (g_weight g) + bias_of g)), concat_singletons, map_map. apply map_ext. intros x. rewrite (dot_comm x). reflexivity.
Qed.
Lemma map2_repeat {A} (f : R -> A -> R) c (xs : list A) : map2 f (repeat c (length xs)) xs = map (f c) xs.
Proof. induction xs as [|x xs IH]; cbn; [reflexivity|rewrite IH; reflexivity]. Qed.
Lemma sign_key s pen :
  let plus := ln (1 + exp (- (1 * s))) + pen in let minus := ln (1 + exp (- (-1 * s))) + pen in let a := minus - plus in
  -1 < tanh s < 1 /\ tanh s = (exp a - exp (- a)) / (exp a + exp (- a)) /\ (0 < tanh s <-> plus < minus) /\ (tanh s = 0 <-> plus = minus).
Proof.
  cbv zeta. pose proof (softplus_diff s) as D. set (A := ln (1 + exp (- (1 * s)))) in *. set (B := ln (1 + exp (- (-1 * s)))) in *. replace (B + pen - (A + pen)) with s by lra.
  split; [apply tanh_range|]. split; [apply tanh_exp|]. assert (Z : tanh 0 = 0) by (rewrite tanh_exp, Ropp_0, exp_0; field).
  split; split; intros H.
  - destruct (Rlt_le_dec 0 s) as [Q|Q]; [lra|]. destruct Q as [Q|Q]; [apply tanh_incr in Q; lra|]. rewrite Q, Z in H. lra.
  - assert (Q : 0 < s) by lra. apply tanh_incr in Q. lra.
  - destruct (Rtotal_order s 0) as [Q|[Q|Q]]; [apply tanh_incr in Q; lra|lra|apply tanh_incr in Q; lra].
  - assert (Q : s = 0) by lra. rewrite Q. exact Z.
Qed.
Definition penalty (g : regloss) : R := match g_l2 g with Some r => r / 2 * sqnorm (g_weight g) | None => 0 end.
Lemma loss_const g b xs c : widths (length (g_weight g)) xs -> prodl b = length xs ->
  logistic_loss g (batch b (length (g_weight g)) xs) (Some (per_sample b (repeat c (length xs))))
  = Ok (per_sample b (map (fun x => ln (1 + exp (- (c * (dot (g_weight g) x + bias_of g)))) + penalty g) xs)).
Proof.
  intros W P. unfold logistic_loss. rewrite C77_logistic_per_sample by (try assumption; apply repeat_length). rewrite map2_repeat. reflexivity.
Qed.

(* ---------- C133 ---------- *)
(* The prediction of each sample is strictly between -1 and 1; it is the hyperbolic tangent of how much smaller the loss of the label 1 is than that of -1.
   So its sign is the label with the smaller loss and it is 0 exactly on ties, whatever the penalty. *)
Theorem C133_logistic : forall g b xs, widths (length (g_weight g)) xs -> prodl b = length xs ->
  exists ps plus minus,
    logistic_predict g (batch b (length (g_weight g)) xs) = Ok (per_sample b ps) /\
    logistic_loss g (batch b (length (g_weight g)) xs) (Some (per_sample b (repeat 1 (length xs)))) = Ok (per_sample b plus) /\
    logistic_loss g (batch b (length (g_weight g)) xs) (Some (per_sample b (repeat (-1) (length xs)))) = Ok (per_sample b minus) /\
    length ps = length xs /\ length plus = length xs /\ length minus = length xs /\
    forall i, (i < length xs)%nat ->
      let p := nth i ps 0 in let a := nth i minus 0 - nth i plus 0 in
      -1 < p < 1 /\ p = (exp a - exp (- a)) / (exp a + exp (- a)) /\ (0 < p <-> nth i plus 0 < nth i minus 0) /\ (p = 0 <-> nth i plus 0 = nth i minus 0).
Proof.
  intros g b xs W P. eexists. eexists. eexists. split; [apply predict_batch; assumption|]. split; [apply loss_const; assumption|]. split; [apply loss_const; assumption|].
  rewrite !map_length. repeat (split; [reflexivity|]). intros i Hi. cbv zeta.
  set (f := fun x => tanh (dot (g_weight g) x + bias_of g)). set (fp := fun x => ln (1 + exp (- (1 * (dot (g_weight g) x + bias_of g)))) + penalty g). set (fm := fun x => ln (1 + exp (- (-1 * (dot (g_weight g) x + bias_of g)))) + penalty g).
  rewrite (nth_indep (map f xs) 0 (f [])), (nth_indep (map fp xs) 0 (fp [])), (nth_indep (map fm xs) 0 (fm [])) by (rewrite map_length; exact Hi). rewrite !map_nth.
  exact (sign_key (dot (g_weight g) (nth i xs []) + bias_of g) (penalty g)).
Qed.
Print Assumptions C133_logistic.

(* The estimator's predict (two classes, either solver) answers the class of the sign of this prediction, the larger class on ties. *)
Theorem C133_estimator : forall torch g c0 c1 (X : list (list R)), widths (length (g_weight g)) X ->
  exists ps, logistic_predict g (batch [length X] (length (g_weight g)) X) = Ok (per_sample [length X] ps) /\
    predict_binary (length (g_weight g)) (coef_of torch (g_weight g)) (g_bias g) [c0; c1] X = Ok ([length X], map (fun p => if Rle_dec 0 p then c1 else c0) ps).
Proof.
  intros torch g c0 c1 X W. eexists. split; [apply predict_batch; [exact W|cbn; lia]|]. rewrite C54_predict by exact W. do 2 f_equal. rewrite map_map. apply map_ext. intros x. fold (bias_of g).
  pose proof (tanh_sign (dot (g_weight g) x + bias_of g)) as S. destruct (Rle_dec 0 (tanh _)) as [A|A]; destruct (Rle_dec 0 (dot _ _ + _)) as [B|B]; tauto.
Qed.
Print Assumptions C133_estimator.

(* The regression of QuadraticLoss is, for every sample, the one label at which the loss is the penalty alone; every other label costs more. *)
Theorem C133_regression : forall g b xs, widths (length (g_weight g)) xs -> prodl b = length xs ->
  exists rs, regression g (batch b (length (g_weight g)) xs) = Ok (per_sample b rs) /\ length rs = length xs /\
    forall ys, length ys = length xs -> exists vs, quadratic_loss g (batch b (length (g_weight g)) xs) (Some (per_sample b ys)) = Ok (per_sample b vs) /\ length vs = length xs /\
      forall i, (i < length xs)%nat -> penalty g <= nth i vs 0 /\ (nth i vs 0 = penalty g <-> nth i ys 0 = nth i rs 0).
Proof.
  intros g b xs W P. set (r := fun x => dot (g_weight g) x + bias_of g). exists (map r xs). split; [|split; [apply map_length|]].
  - unfold regression. rewrite linear1_batch by assumption. f_equal. unfold per_sample. f_equal. rewrite map_map. apply map_ext. intros x. rewrite (dot_comm x). reflexivity.
  - intros ys L. eexists. split; [unfold quadratic_loss; apply C77_quadratic_per_sample; assumption|]. fold (penalty g). clear W P. split.
    + revert ys L. induction xs as [|x xs IH]; intros [|y ys] L; try discriminate; cbn; [reflexivity|]. f_equal. apply IH. injection L. auto.
    + revert ys L. induction xs as [|x xs IH]; intros [|y ys] L i Hi; try discriminate; cbn in Hi; [lia|]. destruct i as [|i]; cbn [map2 map nth].
      * fold (r x). split; [pose proof (Rle_0_sqr (r x - y)) as Q; unfold Rsqr in Q; lra|]. split; intros E; [|rewrite E; ring].
        assert (Q : (r x - y) * (r x - y) = 0) by lra. apply Rmult_integral in Q. lra.
      * apply IH; [injection L; auto|lia].
Qed.
Print Assumptions C133_regression.

(* A new LogisticLoss is undecided: it predicts 0 and costs ln 2 for every sample and every label, whatever the penalty. *)
Theorem C133_start : forall d l2 b0 g b xs ys, logistic_new d l2 b0 = Ok g -> widths (Z.to_nat d) xs -> prodl b = length xs -> length ys = length xs ->
  logistic_predict g (batch b (Z.to_nat d) xs) = Ok (per_sample b (repeat 0 (length xs))) /\
  logistic_loss g (batch b (Z.to_nat d) xs) (Some (per_sample b ys)) = Ok (per_sample b (repeat (ln 2) (length xs))).
Proof.
  intros d l2 b0 g b xs ys N W P L. unfold logistic_new in N. destruct (0 <? d)%Z; [|discriminate]. cbn in N. injection N as <-.
  set (g := {| g_weight := _ |}). assert (Lw : length (g_weight g) = Z.to_nat d) by apply repeat_length. rewrite <- Lw in W |- *.
  assert (Zb : bias_of g = 0) by (unfold bias_of, g; cbn; destruct b0; reflexivity).
  assert (Zd : forall n x, dot (repeat 0 n) x = 0).
  { intros n. unfold dot. induction n as [|n IH]; intros [|a x]; try reflexivity. cbn [repeat map2 rsum fold_right]. specialize (IH x). unfold rsum in *. cbn. rewrite IH. ring. }
  assert (Zp : penalty g = 0).
  { unfold penalty, sqnorm. destruct (g_l2 g); [|reflexivity]. cbn [g_weight g]. rewrite Zd. ring. }
  assert (C : forall (f : list R -> R) c l, (forall x, f x = c) -> map f l = repeat c (length l)) by (intros f c l H; induction l as [|a l IH]; cbn; [reflexivity|rewrite H, IH; reflexivity]).
  assert (Z0 : tanh 0 = 0) by (rewrite tanh_exp, Ropp_0, exp_0; field).
  split.
  - rewrite predict_batch by assumption. do 2 f_equal. apply C. intros x. cbn [g_weight g]. rewrite Zd, Zb, Rplus_0_r. exact Z0.
  - unfold logistic_loss. rewrite C77_logistic_per_sample by assumption. fold (penalty g). rewrite Zp, Zb. do 2 f_equal. clear - L Zd. revert ys L.
    induction xs as [|x xs IH]; intros [|y ys] L; try discriminate; cbn [map2 repeat length]; [reflexivity|]. f_equal; [|apply IH; injection L; auto].
    change (g_weight g) with (repeat 0 (Z.to_nat d)). rewrite Zd. replace (- (y * (0 + 0))) with 0 by ring. rewrite exp_0, Rplus_0_r. reflexivity.
Qed.
Print Assumptions C133_start.

(* The constructors refuse a dimension that is not positive, and so the default; data of another width is refused by everything. *)
Theorem C133_dimensions :
  (forall d l2 i init b, (d <= 0)%Z -> logistic_new d l2 i = Raise AssertionError /\ quadratic_new init b d l2 i = Raise AssertionError) /\
  (forall d l2 i init b, (0 < d)%Z -> (forall n, length (init n) = n) ->
    exists g h, logistic_new d l2 i = Ok g /\ quadratic_new init b d l2 i = Ok h /\ length (g_weight g) = Z.to_nat d /\ length (g_weight h) = Z.to_nat d /\
      (i = true <-> g_bias g <> None) /\ (i = true <-> g_bias h <> None) /\ (forall r, g_l2 g = Some r <-> l2 = Some r /\ 0 < r) /\ g_l2 h = g_l2 g) /\
  (forall g s k data y, k <> length (g_weight g) -> let X := mkT (s ++ [k]) data in
    logistic_predict g X = Raise RuntimeError /\ regression g X = Raise RuntimeError /\ logistic_loss g X (Some y) = Raise RuntimeError /\ quadratic_loss g X (Some y) = Raise RuntimeError).
Proof.
  split; [|split].
  - intros d l2 i init b H. unfold logistic_new, quadratic_new. replace (0 <? d)%Z with false by (symmetry; apply Z.ltb_ge; exact H). split; reflexivity.
  - intros d l2 i init b H Li. unfold logistic_new, quadratic_new. replace (0 <? d)%Z with true by (symmetry; apply Z.ltb_lt; exact H). cbn [assert_ bind]. eexists. eexists. split; [reflexivity|]. split; [reflexivity|].
    cbn [g_weight g_bias g_l2]. split; [apply repeat_length|]. split; [apply Li|]. split; [destruct i; split; congruence|]. split; [destruct i; split; congruence|]. split; [|reflexivity].
    intros r. unfold l2reg_of. destruct l2 as [q|]; [|split; [discriminate|intros [E _]; discriminate]]. destruct (Rleb q 0) eqn:E.
    + apply Rleb_true in E. split; [discriminate|]. intros [Q Pq]. injection Q as ->. lra.
    + assert (N : ~ q <= 0) by (intros N; apply Rleb_true in N; congruence). split; [intros Q; injection Q as ->; split; [reflexivity|lra]|intros [Q _]; exact Q].
  - intros g s k data y N X. assert (Li : linear [g_weight g] [bias_of g] (length (g_weight g)) X = Raise RuntimeError).
    { unfold linear, X. cbn [shp]. rewrite last_snoc. apply Nat.eqb_neq in N. rewrite N. reflexivity. }
    unfold logistic_predict, regression, logistic_loss, quadratic_loss, logistic_value, quadratic_value. rewrite Li. repeat split.
Qed.
Print Assumptions C133_dimensions.

(* ---------- concrete cases ---------- *)
Definition g_ex : regloss := {| g_weight := [1; -2]; g_bias := Some 1; g_l2 := Some 3 |}.
Example C133_logistic_case : exists ps, logistic_predict g_ex (batch [2%nat] 2 [[1; 0]; [0; 1]]) = Ok (per_sample [2%nat] ps) /\ 0 < nth 0 ps 0 < 1 /\ -1 < nth 1 ps 0 < 0.
Proof.
  exists [tanh 2; tanh (-1)]. split.
  - change 2%nat with (length (g_weight g_ex)) at 2. rewrite (predict_batch g_ex [2%nat] [[1; 0]; [0; 1]]) by (try reflexivity; repeat constructor). do 2 f_equal. cbn. f_equal; [|f_equal]; f_equal; unfold dot; cbn; ring.
  - cbn. pose proof (tanh_range 2). pose proof (tanh_range (-1)). assert (Z : tanh 0 = 0) by (rewrite tanh_exp, Ropp_0, exp_0; field). pose proof (tanh_incr 0 2). pose proof (tanh_incr (-1) 0). lra.
Qed.
Example C133_estimator_case : predict_binary 2 (coef_of true [1; -2]) (Some 1) [0; 7]%Z [[1; 0]; [0; 1]; [1; 1]] = Ok ([3%nat], [7; 0; 7]%Z).
Proof.
  destruct (C133_estimator true g_ex 0 7 [[1; 0]; [0; 1]; [1; 1]]) as (ps & E & H); [repeat constructor|]. refine (eq_trans H _). do 2 f_equal.
  assert (E' := eq_trans (eq_sym (predict_batch g_ex [3%nat] [[1; 0]; [0; 1]; [1; 1]] ltac:(repeat constructor) eq_refl)) E). clear E. injection E' as E. destruct ps as [|p0 [|p1 [|p2 [|]]]]; try discriminate. cbn in E. injection E as <- <- <-. cbn.
  pose proof (tanh_sign (dot [1; -2] [1; 0] + bias_of g_ex)). pose proof (tanh_sign (dot [1; -2] [0; 1] + bias_of g_ex)). pose proof (tanh_sign (dot [1; -2] [1; 1] + bias_of g_ex)). unfold dot, bias_of in *. cbn in *.
  repeat destruct (Rle_dec 0 _); try reflexivity; lra.
Qed.
Example C133_regression_case : exists vs, quadratic_loss g_ex (batch [2%nat] 2 [[1; 0]; [0; 1]]) (Some (per_sample [2%nat] [2; 5])) = Ok (per_sample [2%nat] vs) /\ nth 0 vs 0 = penalty g_ex /\ penalty g_ex < nth 1 vs 0.
Proof.
  destruct (C133_regression g_ex [2%nat] [[1; 0]; [0; 1]]) as (rs & E & _ & H); [repeat constructor|reflexivity|]. destruct (H [2; 5] eq_refl) as (vs & V & _ & K). exists vs. split; [exact V|].
  unfold regression in E. rewrite linear1_batch in E by (try reflexivity; repeat constructor). injection E as E. destruct rs as [|r0 [|r1 [|]]]; try discriminate. cbn in E. injection E as E0 E1.
  pose proof (K 0%nat ltac:(cbn; lia)) as [_ K0]. pose proof (K 1%nat ltac:(cbn; lia)) as [L1 K1]. cbn [nth] in *. unfold dot, bias_of in *. cbn in E0, E1. split; [apply K0; lra|].
  destruct L1 as [L1|L1]; [exact L1|]. symmetry in L1. apply K1 in L1. lra.
Qed.
Example C133_start_case : exists g, logistic_new 2 (Some 1) true = Ok g /\ logistic_loss g (batch [2%nat] 2 [[1; 0]; [0; 1]]) (Some (per_sample [2%nat] [1; -1])) = Ok (per_sample [2%nat] [ln 2; ln 2]).
Proof. eexists. split; [reflexivity|]. refine (proj2 (C133_start 2 (Some 1) true _ [2%nat] [[1; 0]; [0; 1]] [1; -1] eq_refl _ eq_refl eq_refl)). repeat constructor. Qed.
Example C133_dimensions_case : logistic_new 0 (Some 1) false = Raise AssertionError /\ logistic_predict g_ex (mkT [1%nat; 3%nat] [1; 2; 3]) = Raise RuntimeError.
Proof.
  split; [apply (proj1 C133_dimensions 0%Z (Some 1) false (fun _ => []) 0 ltac:(lia))|].
  apply (proj2 (proj2 C133_dimensions) g_ex [1%nat] 3%nat [1; 2; 3] (mkT [] [])). discriminate.
Qed.
