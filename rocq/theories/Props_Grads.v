(* C114: the gradients used by importance sampling and by the initial multiplier are those of each sample's own loss. *)
From Coq Require Import Reals List Bool ZArith String Arith Lra Lia Sorted ClassicalEpsilon.
From Verif Require Import PyBase RList XReal Tensor Loss_Model Loss_Spec Loss_Proofs Costs_Model Costs_Proofs CostDecoder_Model OptCond_Model Samplers_Model Wrap_Model
  Estim_Model Estim_Proofs Handover_Proofs Dual_Model Dual_Spec Dual_Proofs TDual_Model TDual_Spec TDual_Proofs Props_Loss Props_TDual Props_Estim EstDual_Model EstDual_Spec EstDual_Proofs
  Props_EstDual Gradient Grads_Model Grads_Proofs Grads_Losses.
Import ListNotations.
Local Open Scope R_scope.
Local Notation length := List.length.

(* ---------- the function that is differentiated ---------- *)
(* One sample passed alone through the wrapped loss gives a number without axes: its own loss and the penalty. *)
Theorem C114_function_labelled loss w c d dl k g x y :
  regularised_by w c -> w_has_labels w = true -> w_reduce w = true -> (0 < k)%nat -> (forall x y, length (g x y) = k) -> rowwise_labelled loss d dl k g ->
  length x = d -> length y = dl -> sample_loss (w_value loss w) x (Some y) = Ok (rmean (g x y) + c).
Proof. intros Hc. exact (single_labelled loss w c Hc d dl k g x y). Qed.
Print Assumptions C114_function_labelled.
Theorem C114_function_flat loss w c d dl h x y :
  regularised_by w c -> w_has_labels w = true -> w_reduce w = false -> rowwise_flat_labelled loss d dl h ->
  length x = d -> length y = dl -> sample_loss (w_value loss w) x (Some y) = Ok (h x y + c).
Proof. intros Hc. exact (single_flat loss w c Hc d dl h x y). Qed.
Print Assumptions C114_function_flat.
Theorem C114_function_unlabelled loss w c d k g x :
  regularised_by w c -> w_has_labels w = false -> w_reduce w = true -> (0 < k)%nat -> (forall x, length (g x) = k) -> rowwise loss d k g ->
  length x = d -> sample_loss (w_value loss w) x None = Ok (rmean (g x) + c).
Proof. intros Hc. exact (single_unlabelled loss w c Hc d k g x). Qed.
Print Assumptions C114_function_unlabelled.

(* ---------- the gradients ---------- *)
(* Whatever the loss: row j of the result is the gradient of the loss of sample j, at sample j. *)
Theorem C114_gradients_labelled D model k kl L gx gy xs ys : differentiates D ->
  (forall x y, length x = k -> length y = kl -> sample_loss model x (Some y) = Ok (L x y)) ->
  Forall2 (fun x y => length x = k /\ length y = kl /\ is_gradient (fun x => L x y) x (gx x y) /\ is_gradient (L x) y (gy x y)) xs ys ->
  direction model D (Tensor.batch [length xs] k xs) (Some (Tensor.batch [length ys] kl ys)) = Ok (map (map Fin) (map2 gx xs ys), Some (map (map Fin) (map2 gy xs ys))).
Proof. intros HD. exact (rows_labelled model D HD k kl L gx gy xs ys). Qed.
Print Assumptions C114_gradients_labelled.
Theorem C114_gradients_unlabelled D model k L gx xs : differentiates D -> (forall x, length x = k -> sample_loss model x None = Ok (L x)) ->
  Forall (fun x => length x = k /\ is_gradient L x (gx x)) xs ->
  direction model D (Tensor.batch [length xs] k xs) None = Ok (map (map Fin) (map gx xs), None).
Proof. intros HD. exact (rows_unlabelled model D HD k L gx xs). Qed.
Print Assumptions C114_gradients_unlabelled.

(* data and labels of different lengths are refused *)
Theorem C114_lengths D model xs ys : length xs <> length ys -> functional_grads model D xs (Some ys) = Raise ValueError.
Proof. intros N. unfold functional_grads. apply Nat.eqb_neq in N. unfold vec in *. rewrite N. reflexivity. Qed.
Print Assumptions C114_lengths.

(* ---------- the estimators ---------- *)
Lemma column_rows (P : vec -> vec -> Prop) (X : list vec) (y : list R) : length y = length X -> (forall x v, In x X -> In v y -> P x [v]) -> Forall2 P X (map (fun v => [v]) y).
Proof.
  revert y. induction X as [|x X IH]; intros [|v y] L H; try discriminate; simpl; constructor; [apply H; left; reflexivity|]. apply IH; [injection L; auto|].
  intros x' v' Hx Hv. apply H; right; assumption.
Qed.

(* LinearRegression: 2 r w in the data and -2 r in the label, r the residual; the penalty plays no role *)
Theorem C114_linear D pf a X y d t wt b : differentiates D -> lr_dispatch pf a X y = Ok (FTorch d t) -> widths (length wt) X -> length y = length X ->
  direction (w_value (lr_call wt b) (wrapped_of d [] [wt; [b]])) D (Tensor.batch [length X] (length wt) X) (Some (Tensor.batch [length X] 1 (map (fun v => [v]) y)))
  = Ok (map (map Fin) (map2 (fun x v => vscal (2 * (dot wt x + b - v)) wt) X y), Some (map (map Fin) (map2 (fun x v => [2 * (v - (dot wt x + b))]) X y))).
Proof.
  intros HD H W E. destruct (lr_received _ _ _ _ _ _ H) as (Rs & Q).
  pose proof (C114_gradients_labelled D (w_value (lr_call wt b) (wrapped_of d [] [wt; [b]])) (length wt) 1
    (fun x l => (dot wt x + b - hd 0 l) ^ 2 + penalty (lr_l2_reg a) (wt ++ [b])) (fun x l => vscal (2 * (dot wt x + b - hd 0 l)) wt) (fun x l => [2 * (hd 0 l - (dot wt x + b))])
    X (map (fun v => [v]) y) HD) as G. rewrite !map2_map_r in G. cbn [hd] in G. rewrite map_length, E in G. apply G.
  - intros x l Lx Ll. rewrite (C114_function_labelled _ _ (penalty (lr_l2_reg a) (List.concat ([] ++ [wt; [b]]))) (length wt) 1 1 (fun x l => [(dot wt x + b - hd 0 l) * (dot wt x + b - hd 0 l)]));
      auto; [rewrite rmean1; f_equal; simpl; ring|apply penalised_by; [apply (r_l2 _ _ _ _ _ _ _ _ _ _ _ Q)|discriminate]| |apply lr_rowwise].
    cbn. apply (r_labels _ _ _ _ _ _ _ _ _ _ _ Q). discriminate.
  - apply column_rows; [exact E|]. intros x v Hx _. unfold widths in W. rewrite Forall_forall in W. specialize (W x Hx). cbn [hd]. split; [exact W|]. split; [reflexivity|]. split.
    + apply quad_grad_x. unfold vec in *. congruence.
    + apply quad_grad_y.
Qed.
Print Assumptions C114_linear.

(* LogisticRegression, two classes: - v sigma(- v s) w and - s sigma(- v s), s the score *)
Theorem C114_logistic_binary D pf a X y d t wt b c0 c1 : differentiates D -> lg_dispatch pf a X y = Ok (FTorch d t) -> (c0 < c1)%Z -> (forall v, In v y <-> v = c0 \/ v = c1) ->
  widths (length wt) X -> length y = length X ->
  let bias := if lg_fit_intercept a then b else 0 in
  let trained := if lg_fit_intercept a then [wt; [b]] else [wt] in
  let sign := fun v => if Z.eq_dec v c0 then -1 else 1 in
  direction (w_value (lg_call wt bias) (wrapped_of d [] trained)) D (Tensor.batch [length X] (length wt) X) (Some (Tensor.batch [length X] 1 (map (fun v => [sign v]) y)))
  = Ok (map (map Fin) (map2 (fun x v => vscal (- sign v / (1 + exp (sign v * (dot wt x + bias)))) wt) X y),
        Some (map (map Fin) (map2 (fun x v => [- (dot wt x + bias) / (1 + exp (sign v * (dot wt x + bias)))]) X y))).
Proof.
  intros HD H Hc Hy W E bias trained sign.
  assert (U : unique_labels y = [c0; c1]).
  { apply sorted_unique; [apply unique_sorted|repeat constructor; exact Hc|]. intros v. rewrite unique_in, Hy. simpl. intuition. }
  destruct (lg_received _ _ _ _ _ _ H) as (ts & T' & Rs & Q).
  pose proof (C114_gradients_labelled D (w_value (lg_call wt bias) (wrapped_of d [] trained)) (length wt) 1
    (fun x l => ln (1 + exp (- (hd 0 l * (dot wt x + bias)))) + penalty (lg_l2_reg a) (List.concat trained))
    (fun x l => vscal (- hd 0 l / (1 + exp (hd 0 l * (dot wt x + bias)))) wt) (fun x l => [- (dot wt x + bias) / (1 + exp (hd 0 l * (dot wt x + bias)))])
    X (map (fun v => [v]) (map sign y)) HD) as G.
  rewrite map_map in G. rewrite !map2_map_r in G. cbn [hd] in G. rewrite map_length, E in G. apply G.
  - intros x l Lx Ll. rewrite (C114_function_labelled _ _ (penalty (lg_l2_reg a) (List.concat ([] ++ trained))) (length wt) 1 1 (fun x l => [ln (1 + exp (- (hd 0 l * (dot wt x + bias))))]));
      auto; [rewrite rmean1; reflexivity|apply penalised_by; [apply (r_l2 _ _ _ _ _ _ _ _ _ _ _ Q)|unfold trained; destruct (lg_fit_intercept a); discriminate]| | |apply bin_rowwise].
    + cbn. apply (r_labels _ _ _ _ _ _ _ _ _ _ _ Q). discriminate.
    + cbn. apply Rs. rewrite U. reflexivity.
  - rewrite <- map_map with (g := fun v => [v]) (f := sign). apply column_rows; [rewrite map_length; exact E|]. intros x v Hx _. unfold widths in W. rewrite Forall_forall in W. specialize (W x Hx). cbn [hd]. split; [exact W|]. split; [reflexivity|]. split.
    + apply logit_grad_x. unfold vec in *. congruence.
    + apply logit_grad_y.
Qed.
Print Assumptions C114_logistic_binary.

(* LogisticRegression, more classes: sum_k (p_k - [k is the class]) w_k, p the class probabilities, and minus the log-probabilities *)
Theorem C114_logistic_multi D pf a X y d t wts bs k classes : differentiates D -> lg_dispatch pf a X y = Ok (FTorch d t) ->
  StronglySorted Z.lt classes -> (forall v, In v y <-> In v classes) -> (2 < length classes)%nat -> length wts = length classes -> length bs = length classes ->
  widths k X -> Forall (fun w => length w = k) wts -> length y = length X ->
  let biases := if lg_fit_intercept a then bs else map (fun _ => 0) bs in
  let trained := if lg_fit_intercept a then [List.concat wts; bs] else [List.concat wts] in
  let onehot := fun v => map (fun c => if Z.eq_dec v c then 1 else 0) classes in
  let probs := fun x => map (fun s => exp s / rsum (map exp (scores wts biases x))) (scores wts biases x) in
  direction (w_value (mc_call wts biases k) (wrapped_of d [] trained)) D (Tensor.batch [length X] k X) (Some (Tensor.batch [length X] (length classes) (map onehot y)))
  = Ok (map (map Fin) (map2 (fun x v => combination k (map2 Rminus (probs x) (onehot v)) wts) X y),
        Some (map (map Fin) (map2 (fun x v => map (fun p => - ln p) (probs x)) X y))).
Proof.
  intros HD H Hs Hy N2 Lw Lb W Fw E biases trained onehot probs.
  assert (U : unique_labels y = classes).
  { apply sorted_unique; [apply unique_sorted|exact Hs|]. intros v. rewrite unique_in, Hy. reflexivity. }
  assert (N2b : (length (unique_labels y) =? 2)%nat = false) by (apply Nat.eqb_neq; rewrite U; lia).
  assert (Lbi : length biases = length wts) by (unfold biases; destruct (lg_fit_intercept a); rewrite ?map_length; unfold vec in *; congruence).
  assert (Nw : wts <> []) by (intros ->; simpl in Lw; lia).
  destruct (lg_received _ _ _ _ _ _ H) as (ts & T' & Rs & Q).
  pose proof (C114_gradients_labelled D (w_value (mc_call wts biases k) (wrapped_of d [] trained)) k (length classes)
    (fun x l => - rsum (map2 (fun s q => q * (s - ln (rsum (map exp (scores wts biases x))))) (scores wts biases x) l) + penalty (lg_l2_reg a) (List.concat trained))
    (fun x l => ce_data k wts biases l x) (fun x l => ce_labels wts biases x) X (map onehot y) HD) as G.
  rewrite !map2_map_r in G. rewrite map_length, E in G. refine (eq_trans (G _ _) _); clear G.
  - intros x l Lx Ll. rewrite (C114_function_flat _ _ (penalty (lg_l2_reg a) (List.concat ([] ++ trained))) k (length classes)
      (fun x l => - rsum (map2 (fun s q => (s - ln (rsum (map exp (scores wts biases x)))) * q) (scores wts biases x) l))); auto.
    + do 2 f_equal. do 2 f_equal. apply map2_in_ext. intros. ring.
    + apply (penalised_by d [] trained); [apply (r_l2 _ _ _ _ _ _ _ _ _ _ _ Q)|]. unfold trained. destruct (lg_fit_intercept a); discriminate.
    + cbn. apply (r_labels _ _ _ _ _ _ _ _ _ _ _ Q). discriminate.
    + cbn. destruct (a_reduce_spatial d); [|reflexivity]. destruct Rs as [Rs _]. specialize (Rs eq_refl). apply Nat.eqb_neq in N2b. contradiction.
    + rewrite <- Lw. apply mc_rowwise. exact Lbi.
  - assert (Lo : forall v, length (onehot v) = length classes) by (intros v; apply map_length). unfold widths in W.
    assert (F : forall x v, In x X -> (fun x l => length x = k /\ length l = length classes /\
      is_gradient (fun x => - rsum (map2 (fun s q => q * (s - ln (rsum (map exp (scores wts biases x))))) (scores wts biases x) l) + penalty (lg_l2_reg a) (List.concat trained)) x (ce_data k wts biases l x) /\
      is_gradient (fun l => - rsum (map2 (fun s q => q * (s - ln (rsum (map exp (scores wts biases x))))) (scores wts biases x) l) + penalty (lg_l2_reg a) (List.concat trained)) l (ce_labels wts biases x)) x (onehot v)).
    { intros x v Hx. rewrite Forall_forall in W. specialize (W x Hx). split; [exact W|]. split; [apply Lo|]. split.
      - apply ce_grad_x; auto. rewrite Lo. symmetry. exact Lw.
      - apply ce_grad_y; auto. rewrite Lo. symmetry. exact Lw. }
    clear -F E. revert y E. induction X as [|x X IH]; intros [|v y] E; try discriminate; simpl; constructor; [apply F; left; reflexivity|]. apply IH; [intros x' v' Hx; apply F; right; exact Hx|injection E; auto].
  - assert (One : forall v, In v y -> rsum (onehot v) = 1).
    { intros v Hv. apply Hy in Hv. unfold onehot. clear -Hv Hs. induction classes as [|c cs IH]; [contradiction|]. inversion Hs as [|? ? Hs' Hlt]; subst. simpl. destruct (Z.eq_dec v c) as [->|N].
      - assert (Z0 : rsum (map (fun c0 => if Z.eq_dec c c0 then 1 else 0) cs) = 0); [|lra]. clear -Hlt. induction cs as [|e cs IH]; [reflexivity|]. inversion Hlt; subst. simpl. destruct (Z.eq_dec c e); [lia|]. rewrite IH by assumption. ring.
      - destruct Hv as [->|Hv]; [congruence|]. rewrite (IH Hs' Hv). ring. }
    assert (Pos : forall x, 0 < rsum (map exp (scores wts biases x))).
    { intros x. apply rsum_pos; [|apply Forall_forall; intros v Hv; apply in_map_iff in Hv; destruct Hv as (s & <- & _); apply exp_pos].
      unfold scores. destruct wts as [|w wts]; [congruence|]. destruct biases; discriminate. }
    match goal with |- Ok (map (map Fin) ?A, Some (map (map Fin) ?B)) = Ok (map (map Fin) ?A', Some (map (map Fin) ?B')) => assert (EA : A = A'); [|assert (EB : B = B'); [|rewrite EA, EB; reflexivity]] end.
    + apply map2_in_ext. intros x v Hx Hv. unfold ce_data. rewrite (One v Hv). unfold probs. rewrite map2_map_l. f_equal. apply map2_in_ext. intros. ring.
    + apply map2_in_ext. intros x v Hx Hv. unfold ce_labels, probs. rewrite map_map. apply map_ext. intros s. unfold Rdiv.
      rewrite ln_mult by (try apply exp_pos; apply Rinv_0_lt_compat, Pos). rewrite ln_exp, ln_Rinv by apply Pos. ring.
Qed.
Print Assumptions C114_logistic_multi.

(* Weber, away from the position: the weighted direction, and the distance *)
Theorem C114_weber D pf a X y d t pos : differentiates D -> wb_dispatch pf a X y = Ok (FTorch d t) -> widths (length pos) X -> length y = length X ->
  (forall x, In x X -> norm2 (vsub x pos) <> 0) ->
  direction (w_value (wb_call pos) (wrapped_of d [pos] [])) D (Tensor.batch [length X] (length pos) X) (Some (Tensor.batch [length X] 1 (map (fun v => [v]) y)))
  = Ok (map (map Fin) (map2 (fun x v => vscal (v / norm2 (vsub x pos)) (vsub x pos)) X y), Some (map (map Fin) (map2 (fun x v => [norm2 (vsub x pos)]) X y))).
Proof.
  intros HD H W E N. destruct (wb_received _ _ _ _ _ _ H) as (T & Rs & Q & _).
  pose proof (C114_gradients_labelled D (w_value (wb_call pos) (wrapped_of d [pos] [])) (length pos) 1
    (fun x l => hd 0 l * norm2 (vsub x pos) + penalty (wb_l2_reg a) pos) (fun x l => vscal (hd 0 l / norm2 (vsub x pos)) (vsub x pos)) (fun x l => [norm2 (vsub x pos)])
    X (map (fun v => [v]) y) HD) as G. rewrite !map2_map_r in G. cbn [hd] in G. rewrite map_length, E in G. apply G.
  - intros x l Lx Ll. rewrite (C114_function_labelled _ _ (penalty (wb_l2_reg a) (List.concat ([pos] ++ []))) (length pos) 1 1 (fun x l => [hd 0 l * norm2 (vsub x pos)]));
      auto; [rewrite rmean1; simpl; rewrite app_nil_r; reflexivity|apply penalised_by; [apply (r_l2 _ _ _ _ _ _ _ _ _ _ _ Q)|discriminate]| |apply wb_rowwise].
    cbn. apply (r_labels _ _ _ _ _ _ _ _ _ _ _ Q). discriminate.
  - apply column_rows; [exact E|]. intros x v Hx _. unfold widths in W. rewrite Forall_forall in W. specialize (W x Hx). cbn [hd]. split; [exact W|]. split; [reflexivity|]. split.
    + apply weber_grad_x; [unfold vec in *; congruence|apply N; exact Hx].
    + apply weber_grad_y.
Qed.
Print Assumptions C114_weber.

(* NewsVendor: - u below the stock, 0 above *)
Theorem C114_newsvendor D pf a X d t theta : differentiates D -> nv_dispatch pf a X = Ok (FTorch d t) -> (forall r, In r X -> rmean r <> theta) ->
  direction (w_value (nvd_call (nv_k a) (nv_u a) theta) (wrapped_of d [[theta]] [])) D (Tensor.batch [length X] 1 (map (fun r => [rmean r]) X)) None
  = Ok (map (map Fin) (map (fun r => [if Rlt_dec (rmean r) theta then - nv_u a else 0]) X), None).
Proof.
  intros HD H N. destruct (nv_received _ _ _ _ _ H) as (T & Rs & Q).
  pose proof (C114_gradients_unlabelled D (w_value (nvd_call (nv_k a) (nv_u a) theta) (wrapped_of d [[theta]] [])) 1
    (fun x => nv_k a * theta - nv_u a * Rmin theta (hd 0 x)) (fun x => [if Rlt_dec (hd 0 x) theta then - nv_u a else 0]) (map (fun r => [rmean r]) X) HD) as G.
  rewrite map_length in G. rewrite map_map with (f := fun r => [rmean r]) (g := fun x => [if Rlt_dec (hd 0 x) theta then - nv_u a else 0]) in G. cbn [hd] in G. apply G.
  - intros x Lx. rewrite (C114_function_unlabelled _ _ 0 1 1 (fun x => [rmean (map (fun v => nv_k a * theta - nv_u a * Rmin theta v) x)])); auto.
    + destruct x as [|v [|]]; try discriminate. simpl map. rewrite !rmean1. simpl. f_equal. ring.
    + apply unpenalised. left. apply (r_l2 _ _ _ _ _ _ _ _ _ _ _ Q).
    + cbn. destruct (a_has_labels d) eqn:Hl; [|reflexivity]. apply (r_labels _ _ _ _ _ _ _ _ _ _ _ Q) in Hl. congruence.
    + apply (nv_rowwise (nv_k a) (nv_u a) theta 1). lia.
  - apply Forall_forall. intros x Hx. apply in_map_iff in Hx. destruct Hx as (r & <- & Hr). split; [reflexivity|]. cbn [hd]. apply nv_grad. apply N. exact Hr.
Qed.
Print Assumptions C114_newsvendor.

(* Portfolio, away from the kink: minus the weights, steeper when the loss exceeds the threshold *)
Theorem C114_portfolio D pf a X d t raw tau : differentiates D -> pf_dispatch pf a X = Ok (FTorch d t) -> widths (length raw) X ->
  (forall x, In x X -> dot (softmax raw) x <> - tau) ->
  direction (w_value (pfd_call (pf_eta a) (pf_alpha a) raw tau) (wrapped_of d [[tau]; raw] [])) D (Tensor.batch [length X] (length raw) X) None
  = Ok (map (map Fin) (map (fun x => vscal (if Rlt_dec (dot (softmax raw) x) (- tau) then - 1 - pf_eta a / pf_alpha a else - 1) (softmax raw)) X), None).
Proof.
  intros HD H W N. destruct (pf_received _ _ _ _ _ H) as (T & Rs & Q).
  apply (C114_gradients_unlabelled D (w_value (pfd_call (pf_eta a) (pf_alpha a) raw tau) (wrapped_of d [[tau]; raw] [])) (length raw) (risk_loss (pf_eta a) (pf_alpha a) (softmax raw) tau)); [exact HD| |].
  - intros x Lx. rewrite (C114_function_unlabelled _ _ 0 (length raw) 1 (fun x => [risk_loss (pf_eta a) (pf_alpha a) (softmax raw) tau x])); auto.
    + rewrite rmean1. f_equal. ring.
    + apply unpenalised. right. apply (r_l2 _ _ _ _ _ _ _ _ _ _ _ Q).
    + cbn. destruct (a_has_labels d) eqn:Hl; [|reflexivity]. apply (r_labels _ _ _ _ _ _ _ _ _ _ _ Q) in Hl. congruence.
    + apply pf_rowwise.
  - unfold widths in W. rewrite Forall_forall in *. intros x Hx. specialize (W x Hx). split; [exact W|]. apply risk_grad; [unfold softmax; rewrite map_length; unfold vec in *; congruence|apply N; exact Hx].
Qed.
Print Assumptions C114_portfolio.

(* ---------- what importance sampling does in LinearRegression ---------- *)
(* The samples of a data point move along the weights, proportionally to its residual (up to the threshold), and their labels the other
   way; but one observation fitted exactly switches the displacement off for the whole batch. *)
Lemma map2_Forall {A B C} (P : C -> Prop) (f : A -> B -> C) : forall xs ys, Forall2 (fun x y => P (f x y)) xs ys -> Forall P (map2 f xs ys).
Proof. induction 1; simpl; constructor; auto. Qed.
Lemma map2_len {A B C} (f : A -> B -> C) xs ys : length ys = length xs -> length (map2 f xs ys) = length xs.
Proof. intros E. apply map2_length. symmetry. exact E. Qed.
Lemma Forall2_weaken {A B} (P Q : A -> B -> Prop) xs ys : (forall x y, P x y -> Q x y) -> Forall2 P xs ys -> Forall2 Q xs ys.
Proof. intros I. induction 1; constructor; auto. Qed.
Theorem C114_linear_importance D pf a X y d t wt b : differentiates D -> lr_dispatch pf a X y = Ok (FTorch d t) -> X <> [] -> widths (length wt) X -> length y = length X ->
  0 < lr_rho a -> a_imp_samp d = true ->
  exists c, tcost_of (a_cost d) = Some c /\
  forall n zs zls e lam s kp, is_grid n (length X) (length wt) zs -> is_grid n (length X) 1 zls -> zs <> [] -> a_epsilon d = Fin e -> e <> 0 ->
  tsampler_of d (length wt) 1 = Some s -> c_kappa (a_cost d) = Some (Fin kp) -> kp <> 0 -> lam <> 0 -> Exists (fun a => a <> 0) wt ->
  let r x v := dot wt x + b - v in
  let value := t_compute_dual (lr_call wt b) (wrapped_of d [] [wt; [b]]) c s (direction (w_value (lr_call wt b) (wrapped_of d [] [wt; [b]])) D)
                 (dual_of d (tc_power c) e lam) (Tensor.batch [length X] (length wt) X) (Some (Tensor.batch [length X] 1 (map (fun v => [v]) y)))
                 (grid n (length X) (length wt) zs) (Some (grid n (length X) 1 zls)) in
  let objective zs zls := Ok (Scalar (Fin (robust_labelled (pt_cost c) (tc_power c) (lr_rho a) e lam
                            (fun x l => (dot wt x + b - hd 0 l) ^ 2 + penalty (lr_l2_reg a) (wt ++ [b])) X (map (fun v => [v]) y) zs zls))) in
  (Forall2 (fun x v => r x v <> 0) X y ->
     value = objective (displaced (shift lam) (map2 (fun x v => vscal (2 * r x v) wt) X y) zs)
                       (displaced (fun g => vscal (/ kp) (shift lam g)) (map2 (fun x v => [- 2 * r x v]) X y) zls)) /\
  ((exists j, (j < length X)%nat /\ r (nth j X []) (nth j y 0) = 0) -> value = objective zs zls).
Proof.
  intros HD H Nx W E Hr I. destruct (C113_linear pf a X y d t wt b H Nx W E Hr) as (_ & c & Ec & T). exists c. split; [exact Ec|].
  intros n zs zls e lam s kp Gz Gl Nz Ee Ne Es Ek Nk Nl Nw r value objective.
  set (grads := direction (w_value (lr_call wt b) (wrapped_of d [] [wt; [b]])) D) in *.
  pose proof (C114_linear D pf a X y d t wt b HD H W E) as G. fold grads in G.
  specialize (T n zs zls e lam grads Gz Gl Nz Ee Ne). destruct T as (_ & T1 & T2). specialize (T1 I). specialize (T2 I).
  assert (GE : map2 (fun x v => [2 * (v - (dot wt x + b))]) X y = map2 (fun x v => [- 2 * r x v]) X y) by (apply map2_in_ext; intros x v _ _; unfold r; f_equal; ring).
  unfold vec in *. rewrite GE in G. clear GE. split.
  - intros F. apply (T1 s kp _ _ Es Ek Nk Nl G).
    + apply map2_len. exact E.
    + unfold widths. apply map2_Forall. clear -F. induction F; constructor; [apply vscal_length|assumption].
    + apply map2_Forall. revert F. apply Forall2_weaken.
      intros x v Hv. unfold vscal. apply Exists_exists in Nw. destruct Nw as (q & Hq & Nq). apply Exists_exists. exists (2 * r x v * q). split; [apply in_map; exact Hq|].
      apply Rmult_integral_contrapositive_currified; [|exact Nq]. lra.
    + apply map2_len. exact E.
    + unfold widths. apply map2_Forall. clear -F. induction F; constructor; [reflexivity|assumption].
    + apply map2_Forall. revert F. apply Forall2_weaken. intros x v Hv. constructor. lra.
  - intros (j & Hj & Z). apply (T2 s _ _ Es G). left. exists (map Fin (vscal (2 * r (nth j X []) (nth j y 0)) wt)). split; [|split].
    + apply in_map. pose proof (nth_map2 (fun x v => vscal (2 * r x v) wt) [] 0 [] X y j Hj ltac:(unfold vec in *; lia)) as M.
      pose proof (nth_In (map2 (fun x v => vscal (2 * r x v) wt) X y) [] (n := j)) as P. rewrite map2_len in P by exact E. specialize (P Hj). unfold vec in *. rewrite M in P. exact P.
    + destruct wt; [inversion Nw|discriminate].
    + right. eexists. split; [reflexivity|]. apply Forall_forall. intros q Hq. unfold vscal in Hq. apply in_map_iff in Hq. destruct Hq as (u & <- & _). unfold vec in *. rewrite Z. ring.
Qed.
Print Assumptions C114_linear_importance.

(* ---------- the losses of the library used directly ---------- *)
(* LogisticLoss and QuadraticLoss keep the trailing axis of their value, so differentiation refuses them: for every model and sample. *)
Theorem C114_direct_never D l2 wt b x v xs y : length x = length wt ->
  sample_loss (logistic_value l2 wt b) x (Some [v]) = Raise RuntimeError /\
  sample_loss (quadratic_value l2 wt b) x (Some [v]) = Raise RuntimeError /\
  (widths (length wt) xs -> xs <> [] -> length y = length xs ->
    direction (logistic_value l2 wt b) D (Tensor.batch [length xs] (length wt) xs) (Some (Tensor.batch [length xs] 1 (map (fun v => [v]) y))) = Raise RuntimeError /\
    direction (quadratic_value l2 wt b) D (Tensor.batch [length xs] (length wt) xs) (Some (Tensor.batch [length xs] 1 (map (fun v => [v]) y))) = Raise RuntimeError).
Proof.
  assert (Lg : forall x v, length x = length wt -> sample_loss (logistic_value l2 wt b) x (Some [v]) = Raise RuntimeError).
  { intros x0 v0 L. pose proof (C77_logistic_per_sample l2 wt b [1%nat] [x0] [v0] ltac:(repeat constructor; exact L) eq_refl eq_refl) as P.
    unfold sample_loss, call_loss. cbn [option_map]. rewrite !one_row. cbn [length]. rewrite L. unfold per_sample in P at 1. cbn [map] in P. unfold vec in *. rewrite P. reflexivity. }
  assert (Qd : forall x v, length x = length wt -> sample_loss (quadratic_value l2 wt b) x (Some [v]) = Raise RuntimeError).
  { intros x0 v0 L. pose proof (C77_quadratic_per_sample l2 wt b [1%nat] [x0] [v0] ltac:(repeat constructor; exact L) eq_refl eq_refl) as P.
    unfold sample_loss, call_loss. cbn [option_map]. rewrite !one_row. cbn [length]. rewrite L. unfold per_sample in P at 1. cbn [map] in P. unfold vec in *. rewrite P. reflexivity. }
  intros L. split; [apply Lg, L|]. split; [apply Qd, L|]. intros W N E.
  unfold direction. cbn [option_map]. rewrite (trows_batch [length xs] (length wt) xs W) by (simpl; lia).
  assert (W2 : widths 1 (map (fun v : R => [v]) y)) by apply widths_column.
  rewrite (trows_batch [length xs] 1 _ W2) by (rewrite map_length; simpl; lia). unfold functional_grads.
  assert (El : (length xs =? length (map (fun v : R => [v]) y))%nat = true) by (rewrite map_length, E; apply Nat.eqb_refl). unfold vec in *. rewrite El.
  destruct xs as [|x0 xs]; [congruence|]. destruct y as [|v0 y]; [discriminate|]. inversion W; subst. cbn [map psg_labelled]. unfold grad_func. rewrite Lg, Qd by assumption. split; reflexivity.
Qed.
Print Assumptions C114_direct_never.
(* so a loss can be evaluated and yet have no robust version with importance sampling or an initial multiplier *)
Theorem C114_direct_refuted : exists l2 wt b xs ys v, logistic_value l2 wt b (Tensor.batch [2%nat] 1 xs) (Some (Tensor.batch [2%nat] 1 ys)) = Ok v /\
  forall D, direction (logistic_value l2 wt b) D (Tensor.batch [2%nat] 1 xs) (Some (Tensor.batch [2%nat] 1 ys)) = Raise RuntimeError.
Proof.
  exists None, [1], 0, [[1]; [2]], [[1]; [-1]]. eexists. split.
  - exact (C77_logistic_per_sample None [1] 0 [2%nat] [[1]; [2]] [1; -1] ltac:(repeat constructor) eq_refl eq_refl).
  - intros D. destruct (C114_direct_never D None [1] 0 [1] 1 [[1]; [2]] [1; -1] eq_refl) as (_ & _ & P). apply (P ltac:(repeat constructor) ltac:(discriminate) eq_refl).
Qed.
Print Assumptions C114_direct_refuted.
(* NewsVendorLoss_torch is refused earlier, by its own assertion *)
Theorem C114_newsvendor_loss_never D k u theta x xs : sample_loss (nv_torch_value k u theta) x None = Raise AssertionError /\
  direction (nv_torch_value k u theta) D (Tensor.batch [length (x :: xs)] (length x) (x :: xs)) None = Raise AssertionError.
Proof. split; reflexivity. Qed.
Print Assumptions C114_newsvendor_loss_never.

(* ---------- examples ---------- *)
(* there is such an operator *)
Example C114_operator : exists D, differentiates D.
Proof.
  exists (fun f x => epsilon (inhabits []) (fun g => is_gradient f x g)). intros f x g H. apply (gradient_unique f x); [|exact H].
  apply (epsilon_spec (inhabits []) (fun g => is_gradient f x g)). exists g. exact H.
Qed.
(* a loss with a known gradient: (2 x - 3)^2 at 1 and at 2 *)
Example C114_case : is_gradient (fun x => (dot [2] x + 0 - 3) ^ 2 + 1) [1] [-4] /\ is_gradient (fun x => (dot [2] x + 0 - 3) ^ 2 + 1) [2] [4].
Proof.
  split; [pose proof (quad_grad_x [2] 0 3 1 [1] eq_refl) as G|pose proof (quad_grad_x [2] 0 3 1 [2] eq_refl) as G].
  - replace (vscal (2 * (dot [2] [1] + 0 - 3)) [2]) with [-4] in G; [exact G|]. unfold vscal, dot. simpl. f_equal. ring.
  - replace (vscal (2 * (dot [2] [2] + 0 - 3)) [2]) with [4] in G; [exact G|]. unfold vscal, dot. simpl. f_equal. ring.
Qed.
