(* Property C153: what the general tuner's conjugate is for the losses of the package. *)
From Coq Require Import Reals List Bool String Arith Lra Lia.
From Verif Require Import PyBase RList XReal DedProg_Model Tuner_Model Tuner_Spec Tuner_Proofs Tuner2_Proofs PhiLoss_Model PhiLoss_Proofs.
Import ListNotations.
Local Open Scope R_scope.
Local Open Scope list_scope.

(* ---------- specification ---------- *)
(* the loss of a sample: a linear model through the logistic loss or the square, plus a ridge term *)
Definition lin_loss (k : lin_kind) (l2 : R) (w : vec) (b : R) (x : vec) (y : R) : R :=
  match k with LLogistic => ln (1 + exp (- (y * (dot w x + b)))) | LQuadratic => (dot w x + b - y) ^ 2 end + / 2 * l2 * sqnorm w.
(* m is the second derivative of f along one motion of the sample and one of the weights: [f t s], derivative in t at 0 and then in s *)
Definition mixed (f : R -> R -> R) (m : R) : Prop :=
  exists G, (forall s, derivable_pt_lim (fun t => f t s) 0 (G s)) /\ derivable_pt_lim G 0 m.

(* ---------- the derivatives are the right ones ---------- *)
Theorem C153_feature_derivatives : forall k l2 w b x y v a, List.length x = List.length w -> List.length v = List.length w -> List.length a = List.length w ->
  mixed (fun t s => lin_loss k l2 (vadd w (vscal s a)) b (vadd x (vscal t v)) y) (dot v (mat_apply (hess_x k w b x y) a)).
Proof.
  intros k l2 w b x y v a Hx Hv Ha. set (u := dot w x + b).
  assert (U : forall t s, dot (vadd w (vscal s a)) (vadd x (vscal t v)) + b = (u + s * dot a x) + t * (dot w v + s * dot a v)).
  { intros t s. rewrite dot_vadd_l, !dot_vadd_r, !dot_vscal_l, !dot_vscal_r; rewrite ?vadd_length, ?vscal_length; try congruence; rewrite ?vscal_length; try congruence. unfold u. ring. }
  exists (fun s => lin_u k (u + s * dot a x) y * (dot w v + s * dot a v)). split.
  - intros s. apply (dl_ext (fun t => lin_val k ((u + s * dot a x) + t * (dot w v + s * dot a v)) y + / 2 * l2 * sqnorm (vadd w (vscal s a)))).
    { intros t. unfold lin_loss, lin_val. rewrite U. destruct k; reflexivity. }
    apply (dl_eq _ _ (lin_u k (u + s * dot a x) y * (dot w v + s * dot a v) + 0)); [ring|].
    apply (derivable_pt_lim_plus (fun t => lin_val k ((u + s * dot a x) + t * (dot w v + s * dot a v)) y) (fun _ => / 2 * l2 * sqnorm (vadd w (vscal s a)))); [|apply derivable_pt_lim_const].
    apply (dl_comp_affine (fun r => lin_val k r y)). rewrite Rmult_0_l, Rplus_0_r. apply d_lin_u.
  - change (mat_apply (hess_x k w b x y) a) with (matvec (hess_x k w b x y) a). rewrite hess_x_apply by congruence. fold u.
    apply (dl_eq _ _ (lin_uu k u y * dot a x * (dot w v + 0 * dot a v) + lin_u k (u + 0 * dot a x) y * dot a v)).
    + rewrite dot_vadd_r by (rewrite !vscal_length; congruence). rewrite !dot_vscal_r, (dot_comm a x), (dot_comm w v), (dot_comm a v).
      replace (u + 0 * dot x a) with u by ring. ring.
    + apply (derivable_pt_lim_mult (fun s => lin_u k (u + s * dot a x) y) (fun s => dot w v + s * dot a v)); [|apply dl_affine].
      apply (dl_comp_affine (fun r => lin_u k r y)). rewrite Rmult_0_l, Rplus_0_r. apply d_lin_uu.
Qed.
Print Assumptions C153_feature_derivatives.
Theorem C153_label_derivatives : forall k l2 w b x y a, List.length x = List.length w -> List.length a = List.length w ->
  mixed (fun t s => lin_loss k l2 (vadd w (vscal s a)) b x (y + t)) (dot (hess_y k w b x y) a).
Proof.
  intros k l2 w b x y a Hx Ha. set (u := dot w x + b).
  assert (U : forall s, dot (vadd w (vscal s a)) x + b = u + s * dot a x).
  { intros s. rewrite dot_vadd_l, dot_vscal_l by (rewrite ?vscal_length; congruence). unfold u. ring. }
  exists (fun s => lin_y k (u + s * dot a x) y). split.
  - intros s. apply (dl_ext (fun t => lin_val k (u + s * dot a x) (y + t * 1) + / 2 * l2 * sqnorm (vadd w (vscal s a)))).
    { intros t. unfold lin_loss, lin_val. rewrite U, Rmult_1_r. destruct k; reflexivity. }
    apply (dl_eq _ _ (lin_y k (u + s * dot a x) y * 1 + 0)); [ring|].
    apply (derivable_pt_lim_plus (fun t => lin_val k (u + s * dot a x) (y + t * 1)) (fun _ => / 2 * l2 * sqnorm (vadd w (vscal s a)))); [|apply derivable_pt_lim_const].
    apply (dl_comp_affine (fun r => lin_val k (u + s * dot a x) r)). rewrite Rmult_0_l, Rplus_0_r. apply d_lin_y.
  - unfold hess_y. fold u. rewrite dot_vscal_l, (dot_comm x a). apply (dl_comp_affine (fun r => lin_y k r y)). rewrite Rmult_0_l, Rplus_0_r. apply d_lin_yu.
Qed.
Print Assumptions C153_label_derivatives.

(* ---------- when there is a value ---------- *)
(* Exactly when there are samples, each with a label and as many features as weights, not one feature, and one number more in
   the drawn vector than there are weights. *)
Theorem C153_defined : forall pinv k w b X ys z, (exists v, phi_star_lin pinv k w b X ys z = Ok v) <->
  X <> [] /\ (List.length X <= List.length ys)%nat /\ Forall (fun x : vec => List.length x = List.length w) X /\ List.length w <> 1%nat /\ List.length z = S (List.length w).
Proof.
  intros pinv k w b X ys z. unfold phi_star_lin. split.
  - intros [v H]. destruct X as [|x X]; [discriminate|]. destruct (all_hess k w b (x :: X) ys) as [Hs|e] eqn:E; cbn [bind] in H; [|discriminate].
    destruct (all_hess_inv _ _ _ _ _ _ E) as (A & B & C & _). destruct (Nat.eqb (List.length z) (S (List.length w))) eqn:Ez; [|discriminate].
    apply Nat.eqb_eq in Ez. repeat split; auto; [discriminate|apply C; discriminate].
  - intros (Hn & A & B & C & D). rewrite all_hess_ok by assumption. cbn [bind]. rewrite (proj2 (Nat.eqb_eq _ _) D). destruct X; [congruence|]. eauto.
Qed.
Print Assumptions C153_defined.
(* One feature: never, although the scalar case is written for it. *)
Theorem C153_one_feature_refuted : exists k w b X ys, X <> [] /\ Forall (fun x : vec => List.length x = List.length w) X /\ List.length X = List.length ys /\
  forall pinv z, phi_star_lin pinv k w b X ys z = Raise RuntimeError.
Proof.
  exists LQuadratic, [1], 0, [[1]; [2]], [1; 3]. split; [discriminate|]. split; [repeat constructor|]. split; reflexivity.
Qed.
Print Assumptions C153_one_feature_refuted.
Theorem C153_one_feature : forall pinv k w b X ys z, List.length w = 1%nat -> exists e, phi_star_lin pinv k w b X ys z = Raise e.
Proof.
  intros pinv k w b X ys z H. destruct (phi_star_lin pinv k w b X ys z) as [v|e] eqn:E; [|eauto].
  destruct (proj1 (C153_defined pinv k w b X ys z) (ex_intro _ v E)) as (_ & _ & _ & N & _). contradiction.
Qed.
Print Assumptions C153_one_feature.

(* ---------- what the value is ---------- *)
(* the samples with their labels *)
Definition labelled (X : list vec) (ys : list R) : list (vec * R) := combine X ys.
(* the function conjugated by Blanchet, Murthy and Si when features and label may move: for each sample, the squared length of
   the derivative along a of the gradient in (x, y) *)
Definition phi_full k w b (D : list (vec * R)) (a : vec) : R :=
  / 4 * rmean (map (fun p => sqnorm (mat_apply (hess_x k w b (fst p) (snd p)) a) + dot (hess_y k w b (fst p) (snd p)) a * dot (hess_y k w b (fst p) (snd p)) a) D).
(* when only the features may move *)
Definition phi_features k w b (D : list (vec * R)) (a : vec) : R :=
  / 4 * rmean (map (fun p => sqnorm (mat_apply (hess_x k w b (fst p) (snd p)) a)) D).
(* what the code conjugates, on one more variable c *)
Definition phi_code k w b (D : list (vec * R)) (a : vec) (c : R) : R :=
  / 4 * rmean (map (fun p => sqnorm (vadd (mat_apply (hess_x k w b (fst p) (snd p)) a) (vscal c (hess_y k w b (fst p) (snd p))))) D).

Lemma code_phi k w b a c : List.length a = List.length w -> forall X ys, Forall (fun x : vec => List.length x = List.length w) X ->
  map (fun H => sqnorm (hess_apply H (a ++ [c]))) (map2 (fun x y => hess_cat (hess_x k w b x y) (hess_y k w b x y)) X ys) =
  map (fun p => sqnorm (vadd (mat_apply (hess_x k w b (fst p) (snd p)) a) (vscal c (hess_y k w b (fst p) (snd p))))) (labelled X ys).
Proof.
  intros Ha. induction X as [|x X IH]; intros [|y ys] F; try reflexivity. cbn [map2 map labelled combine]. f_equal; [|apply IH; exact (Forall_inv_tail F)].
  pose proof (Forall_inv F) as Hx. cbn in Hx. cbn [fst snd]. f_equal. apply (hess_cat_apply (List.length w)); [apply hess_x_rows; exact Hx| |exact Ha].
  rewrite hess_x_len. unfold hess_y. rewrite vscal_length. congruence.
Qed.
Lemma split_last (v : vec) n : List.length v = S n -> exists a c, v = a ++ [c] /\ List.length a = n.
Proof.
  intros H. destruct (exists_last (l := v)) as (a & c & E); [intros ->; discriminate|]. exists a, c. split; [exact E|]. subst v. rewrite app_length in H. cbn in H. lia.
Qed.
(* The value is, up to the square of the number of samples (C88), the conjugate of phi_code in d + 1 variables: the derivative
   in the label, which belongs to the sample, is added to the derivatives in the features as a direction of the weights. *)
Theorem C153_value : forall pinv k w b X ys z t v M, List.length z = List.length w ->
  phi_star_lin pinv k w b X ys (z ++ [t]) = Ok v ->
  (forall Hs, all_hess k w b X ys = Ok Hs -> moore_penrose (S (List.length w)) (phi_A (S (List.length w)) Hs) (pinv (phi_A (S (List.length w)) Hs))) ->
  is_max (fun p => List.length (fst p) = List.length w) (fun p => dot (fst p) z + snd p * t - phi_code k w b (labelled X ys) (fst p) (snd p)) M ->
  M = INR (List.length X) * INR (List.length X) * v.
Proof.
  intros pinv k w b X ys z t v M Hz Hv MP HM. unfold vec in *.
  destruct (proj1 (C153_defined pinv k w b X ys (z ++ [t])) (ex_intro _ v Hv)) as (Hn & A & B & C & D).
  unfold phi_star_lin in Hv. rewrite all_hess_ok in Hv, MP by assumption. cbn [bind] in Hv. rewrite (proj2 (Nat.eqb_eq _ _) D) in Hv.
  set (Hs := map2 (fun x y => hess_cat (hess_x k w b x y) (hess_y k w b x y)) X ys) in *.
  assert (Ev : v = phi_star pinv (S (List.length w)) Hs (z ++ [t])) by (destruct X; [congruence|]; inversion Hv; reflexivity).
  assert (LH : List.length Hs = List.length X) by (apply hess_list_len; exact A).
  rewrite <- LH, Ev. apply phi_conjugate.
  - intros E. rewrite E in LH. destruct X; [congruence|discriminate].
  - apply hess_list_ok. exact B.
  - exact D.
  - apply MP. reflexivity.
  - assert (Q : forall a c, List.length a = List.length w -> dot (a ++ [c]) (z ++ [t]) - blanchet_phi Hs (a ++ [c]) = dot a z + c * t - phi_code k w b (labelled X ys) a c).
    { intros a c Ha. rewrite dot_app by (unfold vec in *; congruence). unfold blanchet_phi, phi_code. unfold Hs. rewrite code_phi by assumption.
      f_equal. unfold dot at 2. cbn. ring. }
    destruct HM as [([a c] & Ha & Ea) U]. cbn [fst snd] in *. split.
    + exists (a ++ [c]). split; [rewrite app_length, Ha; cbn; lia|]. rewrite Q by exact Ha. exact Ea.
    + intros p Hp. destruct (split_last p _ Hp) as (a' & c' & -> & Ha'). rewrite Q by exact Ha'. exact (U (a', c') Ha').
Qed.
Print Assumptions C153_value.
(* With the added variable at zero it is the function for features alone, so the value is never below the conjugate for
   transports that keep the labels, whatever the added draw. *)
Theorem C153_features : forall k w b D a, phi_code k w b D a 0 = phi_features k w b D a \/ exists x y, In (x, y) D /\ List.length x <> List.length w.
Proof.
  intros k w b D a. destruct (Forall_dec (fun p : vec * R => List.length (fst p) = List.length w) (fun p => Nat.eq_dec _ _) D) as [F|F].
  - left. unfold phi_code, phi_features. do 2 f_equal. apply map_ext_in. intros [x y] I. rewrite Forall_forall in F. specialize (F _ I). cbn [fst snd] in *. f_equal.
    assert (G : forall p q : vec, List.length p = List.length q -> vadd p (vscal 0 q) = p).
    { induction p as [|c p IH]; intros [|e q] H; try discriminate; [reflexivity|]. unfold vadd, vscal in *. cbn. f_equal; [ring|]. apply IH. cbn in H. congruence. }
    apply G. unfold mat_apply. rewrite map_length, hess_x_len. unfold hess_y. rewrite vscal_length. congruence.
  - right. apply neg_Forall_Exists_neg in F; [|intros p; apply Nat.eq_dec]. apply Exists_exists in F. destruct F as ([x y] & I & N). exists x, y. auto.
Qed.
Print Assumptions C153_features.
Theorem C153_at_least : forall pinv k w b X ys z t v M, List.length z = List.length w ->
  phi_star_lin pinv k w b X ys (z ++ [t]) = Ok v ->
  (forall Hs, all_hess k w b X ys = Ok Hs -> moore_penrose (S (List.length w)) (phi_A (S (List.length w)) Hs) (pinv (phi_A (S (List.length w)) Hs))) ->
  is_max (fun p => List.length (fst p) = List.length w) (fun p => dot (fst p) z + snd p * t - phi_code k w b (labelled X ys) (fst p) (snd p)) M ->
  forall a, List.length a = List.length w -> dot a z - phi_features k w b (labelled X ys) a <= INR (List.length X) * INR (List.length X) * v.
Proof.
  intros pinv k w b X ys z t v M Hz Hv MP HM a Ha. rewrite <- (C153_value pinv k w b X ys z t v M Hz Hv MP HM).
  destruct (proj1 (C153_defined pinv k w b X ys (z ++ [t])) (ex_intro _ v Hv)) as (_ & _ & B & _).
  destruct HM as [_ U]. specialize (U (a, 0) Ha). cbn [fst snd] in U. destruct (C153_features k w b (labelled X ys) a) as [E|(x & y & I & N)].
  - rewrite E in U. lra.
  - exfalso. apply N. rewrite Forall_forall in B. apply B. unfold labelled in I. exact (in_combine_l _ _ _ _ I).
Qed.
Print Assumptions C153_at_least.

(* ---------- the witness: one sample of label 1 at (1, 0), a square loss with weights 0 ---------- *)
Definition wit_A : list vec := [[2; 0; 2]; [0; 2; 0]; [2; 0; 2]].
Definition wit_P : list vec := [[/ 8; 0; / 8]; [0; / 2; 0]; [/ 8; 0; / 8]].
Lemma wit_hess : map2 (fun x y => hess_cat (hess_x LQuadratic [0; 0] 0 x y) (hess_y LQuadratic [0; 0] 0 x y)) [[1; 0]] [1] = [[[-2; 0; -2]; [0; -2; 0]]].
Proof. unfold hess_cat, hess_x, hess_y, dot, vadd, vscal. cbn. repeat (apply f_equal2); try reflexivity; ring. Qed.
Lemma wit_phi_A : phi_A 3 [[[-2; 0; -2]; [0; -2; 0]]] = wit_A.
Proof. unfold phi_A, gram, madd, outer, mscal, mzero, vscal, vadd, wit_A. cbn. repeat (apply f_equal2); try reflexivity; field. Qed.
Lemma wit_mp : moore_penrose 3 wit_A wit_P.
Proof.
  unfold wit_A, wit_P. split; [reflexivity|]. split; [repeat (constructor; [reflexivity|]); constructor|]. repeat split;
    try (intros [|a [|b [|c [|e x]]]] [|a' [|b' [|c' [|e' y]]]] H H'; try discriminate; unfold mat_apply, dot; cbn; field);
    intros [|a [|b [|c [|e x]]]] H; try discriminate; unfold mat_apply, dot; cbn; (apply f_equal2; [field|apply f_equal2; [field|apply f_equal2; [field|reflexivity]]]).
Qed.
(* the conjugate with features and label moving, at (1, 0) *)
Lemma wit_full : is_max (fun a : vec => List.length a = 2%nat) (fun a => dot a [1; 0] - phi_full LQuadratic [0; 0] 0 (labelled [[1; 0]] [1]) a) (1 / 8).
Proof.
  assert (E : forall a1 a2, dot [a1; a2] [1; 0] - phi_full LQuadratic [0; 0] 0 (labelled [[1; 0]] [1]) [a1; a2] = 1 / 8 - 2 * ((a1 - 1 / 4) * (a1 - 1 / 4)) - a2 * a2).
  { intros a1 a2. unfold phi_full, labelled, rmean, mat_apply, hess_x, hess_y, sqnorm, dot, vadd, vscal. cbn. field. }
  split.
  - exists [1 / 4; 0]. split; [reflexivity|]. rewrite E. lra.
  - intros [|a1 [|a2 [|a3 a]]] H; try discriminate. rewrite E. pose proof (Rle_0_sqr (a1 - 1 / 4)) as P. pose proof (Rle_0_sqr a2) as Q. unfold Rsqr in P, Q. lra.
Qed.
Lemma wit_value pinv t : (pinv wit_A = wit_P) -> phi_star_lin pinv LQuadratic [0; 0] 0 [[1; 0]] [1] [1; 0; t] = Ok ((1 + t) * (1 + t) / 16).
Proof.
  intros HP. unfold phi_star_lin. rewrite all_hess_ok; [|cbn; lia|repeat constructor|cbn; lia]. cbn [bind List.length Nat.eqb]. rewrite wit_hess. f_equal.
  unfold phi_star. rewrite wit_phi_A, HP. unfold wit_A, wit_P, matvec, dot. cbn. field.
Qed.
(* the function the code conjugates there *)
Lemma wit_code : is_max (fun p => List.length (fst p) = 2%nat) (fun p => dot (fst p) [1; 0] + snd p * 1 - phi_code LQuadratic [0; 0] 0 (labelled [[1; 0]] [1]) (fst p) (snd p)) (1 / 4).
Proof.
  assert (E : forall a1 a2 c, dot [a1; a2] [1; 0] + c * 1 - phi_code LQuadratic [0; 0] 0 (labelled [[1; 0]] [1]) [a1; a2] c = 1 / 4 - (a1 + c - 1 / 2) * (a1 + c - 1 / 2) - a2 * a2).
  { intros a1 a2 c. unfold phi_code, labelled, rmean, mat_apply, hess_x, hess_y, sqnorm, dot, vadd, vscal. cbn. field. }
  split.
  - exists ([1 / 2; 0], 0). split; [reflexivity|]. cbn [fst snd]. rewrite E. lra.
  - intros [[|a1 [|a2 [|a3 a]]] c] H; try discriminate. cbn [fst snd]. rewrite E. pose proof (Rle_0_sqr (a1 + c - 1 / 2)) as P. pose proof (Rle_0_sqr a2) as Q. unfold Rsqr in P, Q. lra.
Qed.
(* whatever computes the pseudo-inverse, the value for (1, 0) and an added draw of 1 is not the conjugate *)
Theorem C153_refuted : exists k w b X ys z t M, is_max (fun a : vec => List.length a = List.length w) (fun a => dot a z - phi_full k w b (labelled X ys) a) M /\
  (exists Hs, all_hess k w b X ys = Ok Hs /\ moore_penrose 3 (phi_A 3 Hs) wit_P) /\
  forall pinv, (forall Hs, all_hess k w b X ys = Ok Hs -> moore_penrose 3 (phi_A 3 Hs) (pinv (phi_A 3 Hs))) ->
  exists v, phi_star_lin pinv k w b X ys (z ++ [t]) = Ok v /\ INR (List.length X) * INR (List.length X) * v <> M.
Proof.
  exists LQuadratic, [0; 0], 0, [[1; 0]], [1], [1; 0], 1, (1 / 8). split; [exact wit_full|].
  assert (EH : all_hess LQuadratic [0; 0] 0 [[1; 0]] [1] = Ok [[[-2; 0; -2]; [0; -2; 0]]]).
  { rewrite all_hess_ok; [rewrite wit_hess; reflexivity|cbn; lia|repeat constructor|cbn; lia]. }
  split.
  - eexists. split; [exact EH|]. rewrite wit_phi_A. exact wit_mp.
  - intros pinv H. destruct (proj2 (C153_defined pinv LQuadratic [0; 0] 0 [[1; 0]] [1] [1; 0; 1])) as [v Ev].
    { split; [discriminate|]. split; [cbn; lia|]. split; [repeat constructor|]. split; [cbn; lia|reflexivity]. }
    exists v. split; [exact Ev|]. pose proof (C153_value pinv LQuadratic [0; 0] 0 [[1; 0]] [1] [1; 0] 1 v (1 / 4) eq_refl Ev H wit_code) as Q. lra.
Qed.
Print Assumptions C153_refuted.
(* and the value depends on the draw that is added only to make the sizes agree: it takes every non-negative value *)
Theorem C153_draw_refuted : exists k w b X ys z A P, moore_penrose 3 A P /\ forall pinv, pinv A = P ->
  forall v, 0 <= v -> exists t, phi_star_lin pinv k w b X ys (z ++ [t]) = Ok v.
Proof.
  exists LQuadratic, [0; 0], 0, [[1; 0]], [1], [1; 0], wit_A, wit_P. split; [exact wit_mp|]. intros pinv H v Hv. exists (4 * sqrt v - 1). cbn [app]. rewrite wit_value by exact H.
  f_equal. replace (1 + (4 * sqrt v - 1)) with (4 * sqrt v) by ring. replace (4 * sqrt v * (4 * sqrt v) / 16) with (sqrt v * sqrt v) by field. apply sqrt_sqrt. exact Hv.
Qed.
Print Assumptions C153_draw_refuted.
Example C153_at_least_case : forall a, List.length a = 2%nat -> dot a [1; 0] - phi_features LQuadratic [0; 0] 0 (labelled [[1; 0]] [1]) a <= 1 / 4.
Proof.
  intros a Ha. assert (EH : all_hess LQuadratic [0; 0] 0 [[1; 0]] [1] = Ok [[[-2; 0; -2]; [0; -2; 0]]]).
  { rewrite all_hess_ok; [rewrite wit_hess; reflexivity|cbn; lia|repeat constructor|cbn; lia]. }
  pose proof (C153_at_least (fun _ => wit_P) LQuadratic [0; 0] 0 [[1; 0]] [1] [1; 0] 1 _ (1 / 4) eq_refl (wit_value (fun _ => wit_P) 1 eq_refl)) as H.
  specialize (H ltac:(intros Hs E; rewrite EH in E; inversion E; subst Hs; cbn [List.length]; rewrite wit_phi_A; exact wit_mp) wit_code a Ha). cbn [List.length INR] in H. lra.
Qed.

(* ---------- which losses reach the derivatives ---------- *)
(* Of the losses of the package, those that are not wrapped; the branch for mean-risk losses is for none of them. *)
Theorem C153_parameters : forall l, (exists br, lib_branch l = Ok br) <-> (forall i t, l <> LibWrapped i t).
Proof.
  intros [fi|fi| |i t]; try (split; [intros _ i' t'; discriminate|intros _; try destruct fi; eexists; reflexivity]).
  split; [|intros H; exfalso; exact (H i t eq_refl)]. intros [br H] _ _ _. unfold lib_branch, phi_params, get_parameter in H. cbn [lib_class lib_params] in H.
  change (phi_branch "WrappedPrimalLoss") with BTheta in H. cbn [bind] in H.
  destruct (existsb (String.eqb "_theta") (map (String.append "loss.") i ++ map (String.append "transform.") t)) eqn:E; [|discriminate].
  apply existsb_exists in E. destruct E as (s & I & Q). apply String.eqb_eq in Q. subst s. apply in_app_or in I.
  destruct I as [I|I]; apply in_map_iff in I; destruct I as (q & Eq & _); cbn in Eq; discriminate.
Qed.
Print Assumptions C153_parameters.
Theorem C153_wrapped_refuted : exists l, lib_branch l = Raise AttributeError.
Proof. exists (LibWrapped ["pos"%string] []). reflexivity. Qed.
Print Assumptions C153_wrapped_refuted.
Theorem C153_branches : forall l br, lib_branch l = Ok br -> (br = BLinear <-> exists fi, l = LibLogistic fi \/ l = LibQuadratic fi) /\ (br = BTheta <-> l = LibNewsVendor) /\ br <> BMeanRisk.
Proof.
  intros l br H. pose proof (proj1 (C153_parameters l) (ex_intro _ br H)) as N.
  destruct l as [fi|fi| |i t]; [..|exfalso; exact (N i t eq_refl)].
  1,2: destruct fi; inversion H; subst br; (split; [split; [intros _; eexists; auto|reflexivity]|split; [split; discriminate|discriminate]]).
  inversion H; subst br. split; [|split; [split; reflexivity|discriminate]]. split; [discriminate|]. intros [fi [K|K]]; discriminate.
Qed.
Print Assumptions C153_branches.
(* any other loss gets through exactly when its names are those expected *)
Theorem C153_get_parameter : forall name params, (forall a b, name <> (a ++ "MeanRisk" ++ b)%string) ->
  ((exists br, phi_params name params = Ok br) <->
   In (match phi_branch name with BLinear => "linear.weight" | _ => "_theta" end)%string params).
Proof.
  assert (G : forall params p, get_parameter params p = Ok tt <-> In p params).
  { intros params p. unfold get_parameter. destruct (existsb (String.eqb p) params) eqn:E.
    - split; [intros _|reflexivity]. apply existsb_exists in E. destruct E as (s & I & Q). apply String.eqb_eq in Q. subst s. exact I.
    - split; [discriminate|]. intros I. assert (T : existsb (String.eqb p) params = true) by (apply existsb_exists; exists p; split; [exact I|apply String.eqb_refl]). congruence. }
  assert (P : forall s t, prefix s t = true -> exists r, t = (s ++ r)%string).
  { induction s as [|c s IH]; intros t H; [exists t; reflexivity|]. destruct t as [|c' t]; [discriminate|]. cbn in H. destruct (Ascii.ascii_dec c c') as [->|]; [|discriminate].
    destruct (IH t H) as [r ->]. exists r. reflexivity. }
  assert (I : forall t n, String.index 0 "MeanRisk" t = Some n -> exists a b, t = (a ++ "MeanRisk" ++ b)%string).
  { induction t as [|c t IH]; intros n H; [discriminate|]. cbn [index] in H. destruct (prefix "MeanRisk" (String c t)) eqn:Q.
    - destruct (P _ _ Q) as [r E]. exists ""%string, r. exact E.
    - destruct (index 0 "MeanRisk" t) as [m|] eqn:E; [|discriminate]. destruct (IH m eq_refl) as (a & b & ->). exists (String c a), b. reflexivity. }
  intros name params N. unfold phi_params. destruct (phi_branch name) eqn:B.
  - exfalso. unfold phi_branch, contains in B. destruct (index 0 "MeanRisk" name) as [m|] eqn:E; [destruct (I _ _ E) as (a & b & Q); exact (N a b Q)|].
    destruct (_ || _); discriminate.
  - rewrite <- G. destruct (get_parameter params "linear.weight") as [[]|e]; cbn; split; try (intros [br K]; discriminate); try discriminate; eauto.
  - rewrite <- G. destruct (get_parameter params "_theta") as [[]|e]; cbn; split; try (intros [br K]; discriminate); try discriminate; eauto.
Qed.
Print Assumptions C153_get_parameter.
(* The newsvendor loss: without labels, which it does not use, an AssertionError; with labels the derivative taken is the one in
   the label, so the value is 0 or infinite whatever the data, and only for one feature and one drawn number. *)
Theorem C153_newsvendor : forall X labels z v, phi_star_nv X labels z = Ok v <->
  X <> [] /\ (List.length (hd [] X) = 1)%nat /\ (exists ys, labels = Some ys /\ (List.length X <= List.length ys)%nat) /\
  exists z0, z = [z0] /\ ((z0 = 0 /\ v = Fin 0) \/ (z0 <> 0 /\ v = PInf)).
Proof.
  assert (Z : forall (X : list vec) z0, X <> [] -> phi_star_1 (map (fun _ => 0) X) z0 = (if Reqb z0 0 then Fin 0 else PInf)).
  { intros X z0 _. unfold phi_star_1. cbn zeta. replace (rsum (map (fun h => h * h) (map (fun _ : vec => 0) X))) with 0.
    - rewrite Rmult_0_r. rewrite (proj2 (Reqb_true 0 0) eq_refl). cbn. destruct (Reqb z0 0); reflexivity.
    - induction X as [|x X IH]; [reflexivity|]. cbn. rewrite <- IH. ring. }
  intros X labels z v. destruct X as [|x0 X]; [split; [discriminate|intros (H & _); congruence]|]. unfold phi_star_nv.
  destruct labels as [ys|]; [|split; [discriminate|intros (_ & _ & (ys & K & _) & _); discriminate]].
  destruct (Nat.ltb (List.length ys) (List.length (x0 :: X))) eqn:L.
  - apply Nat.ltb_lt in L. split; [discriminate|]. intros (_ & _ & (ys' & E & K) & _). inversion E; subst ys'. lia.
  - apply Nat.ltb_ge in L. cbn [hd]. destruct (Nat.eqb (List.length x0) 1) eqn:O.
    + apply Nat.eqb_eq in O. destruct z as [|z0 [|z1 z]]; try (split; [discriminate|intros (_ & _ & _ & z' & E & _); discriminate]).
      rewrite Z by discriminate. split.
      * intros H. inversion H as [E]. split; [discriminate|]. split; [exact O|]. split; [exists ys; auto|]. exists z0. split; [reflexivity|].
        destruct (Reqb z0 0) eqn:Q; [left; apply Reqb_true in Q; auto|right]. split; [|reflexivity]. intros ->. rewrite (proj2 (Reqb_true 0 0) eq_refl) in Q. discriminate.
      * intros (_ & _ & _ & z' & E & K). inversion E; subst z'. f_equal. destruct K as [[-> ->]|[N ->]].
        -- rewrite (proj2 (Reqb_true 0 0) eq_refl). reflexivity.
        -- destruct (Reqb z0 0) eqn:Q; [apply Reqb_true in Q; contradiction|reflexivity].
    + apply Nat.eqb_neq in O. split; [discriminate|]. intros (_ & K & _). contradiction.
Qed.
Print Assumptions C153_newsvendor.
Theorem C153_newsvendor_refuted : exists X, X <> [] /\ forall z, phi_star_nv X None z = Raise AssertionError.
Proof. exists [[1]; [2]]. split; [discriminate|reflexivity]. Qed.
Print Assumptions C153_newsvendor_refuted.

(* ---------- examples ---------- *)
Example C153_case : phi_star_lin (fun _ => wit_P) LQuadratic [0; 0] 0 [[1; 0]] [1] [1; 0; 3] = Ok 1 /\
  phi_star_nv [[1]; [2]] (Some [0; 0]) [1] = Ok PInf /\ lib_branch (LibLogistic true) = Ok BLinear.
Proof.
  split; [rewrite wit_value by reflexivity; f_equal; field|]. split; [|reflexivity]. apply C153_newsvendor. split; [discriminate|]. split; [reflexivity|].
  split; [exists [0; 0]; cbn; auto|]. exists 1. split; [reflexivity|right]. split; [lra|reflexivity].
Qed.
Example C153_derivative_case : mixed (fun t s => lin_loss LLogistic 1 (vadd [1; 2] (vscal s [1; 0])) 0 (vadd [3; 4] (vscal t [0; 1])) 1) (dot [0; 1] (mat_apply (hess_x LLogistic [1; 2] 0 [3; 4] 1) [1; 0])) /\
  mixed (fun t s => lin_loss LLogistic 1 (vadd [1; 2] (vscal s [1; 0])) 0 [3; 4] (1 + t)) (dot (hess_y LLogistic [1; 2] 0 [3; 4] 1) [1; 0]).
Proof. split; [apply C153_feature_derivatives|apply C153_label_derivatives]; reflexivity. Qed.
Example C153_parameter_case : phi_params "MyQuadraticModel" ["linear.weight"%string] = Ok BLinear /\ phi_params "MyQuadraticModel" ["weight"%string] = Raise AttributeError.
Proof. split; reflexivity. Qed.

(* The branch is chosen by a text anywhere in the name of the class, "MeanRisk" before the other two. *)
Lemma prefix_iff s t : prefix s t = true <-> exists r, t = (s ++ r)%string.
Proof.
  split.
  - revert t. induction s as [|c s IH]; intros t H; [exists t; reflexivity|]. destruct t as [|c' t]; [discriminate|]. cbn in H. destruct (Ascii.ascii_dec c c') as [->|]; [|discriminate].
    destruct (IH t H) as [r ->]. exists r. reflexivity.
  - intros [r ->]. induction s as [|c s IH]; [destruct r; reflexivity|]. cbn. destruct (Ascii.ascii_dec c c) as [_|N]; [exact IH|congruence].
Qed.
Lemma index_iff s t : (exists n, String.index 0 s t = Some n) <-> exists a b, t = (a ++ s ++ b)%string.
Proof.
  split.
  - induction t as [|c t IH]; intros [n H].
    + exists ""%string, ""%string. destruct s; [reflexivity|discriminate].
    + cbn [index] in H. destruct (prefix s (String c t)) eqn:Q.
      * apply prefix_iff in Q. destruct Q as [r E]. exists ""%string, r. exact E.
      * destruct (index 0 s t) as [m|] eqn:E; [|discriminate]. destruct (IH (ex_intro _ m eq_refl)) as (a & b & ->). exists (String c a), b. reflexivity.
  - intros (a & b & ->). induction a as [|c a [n IH]].
    + cbn [String.append]. destruct s as [|c s]; [destruct b; exists 0%nat; reflexivity|]. exists 0%nat. cbn [String.append index].
      replace (prefix (String c s) (String c (s ++ b))) with true; [reflexivity|]. symmetry. apply (proj2 (prefix_iff (String c s) (String c (s ++ b)))). exists b. reflexivity.
    + cbn [String.append index]. destruct (prefix s (String c (a ++ s ++ b))); [exists 0%nat; reflexivity|]. rewrite IH. exists (S n). reflexivity.
Qed.
Lemma contains_iff s t : contains s t = true <-> exists a b, t = (a ++ s ++ b)%string.
Proof. rewrite <- index_iff. unfold contains. destruct (index 0 s t) as [n|]; split; intros H; try discriminate; [exists n; reflexivity|reflexivity|destruct H; discriminate]. Qed.

Theorem C153_names : forall name,
  let has text := exists a b, name = (a ++ text ++ b)%string in
  (phi_branch name = BMeanRisk <-> has "MeanRisk"%string) /\
  (phi_branch name = BLinear <-> ~ has "MeanRisk"%string /\ (has "Logistic"%string \/ has "Quadratic"%string)) /\
  (phi_branch name = BTheta <-> ~ has "MeanRisk"%string /\ ~ has "Logistic"%string /\ ~ has "Quadratic"%string).
Proof.
  intros name has. unfold has. rewrite <- !contains_iff. unfold phi_branch.
  destruct (contains "MeanRisk" name), (contains "Logistic" name), (contains "Quadratic" name); cbn; repeat split; intros; try discriminate; try reflexivity; intuition discriminate.
Qed.
Print Assumptions C153_names.
Example C153_names_case : phi_branch "MyLogisticLoss" = BLinear /\ phi_branch "RobustMeanRiskLogistic" = BMeanRisk /\ phi_branch "NewsVendorLoss_torch" = BTheta.
Proof. repeat split. Qed.
