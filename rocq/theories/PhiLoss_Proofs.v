From Coq Require Import Reals List Bool String Arith Lra Lia.
From Verif Require Import PyBase RList XReal DedProg_Model Tuner_Model Tuner_Spec Tuner_Proofs Tuner2_Proofs PhiLoss_Model.
From Verif Require Grads_Losses.
Import ListNotations.
Local Open Scope R_scope.
Local Open Scope list_scope.

Lemma dl_ext f g t l : (forall s, f s = g s) -> derivable_pt_lim f t l -> derivable_pt_lim g t l.
Proof. exact (Grads_Losses.dlim_ext f g t l). Qed.
Lemma dl_eq f t l l' : l = l' -> derivable_pt_lim f t l -> derivable_pt_lim f t l'.
Proof. intros <-. auto. Qed.
Lemma dl_affine p q t : derivable_pt_lim (fun s => p + s * q) t q.
Proof.
  apply (dl_eq _ _ (0 + (1 * q + t * 0))); [ring|]. apply derivable_pt_lim_plus; [apply derivable_pt_lim_const|].
  apply (derivable_pt_lim_mult (fun s => s) (fun _ => q)); [apply derivable_pt_lim_id|apply derivable_pt_lim_const].
Qed.
Lemma dl_comp_affine f p q t l : derivable_pt_lim f (p + t * q) l -> derivable_pt_lim (fun s => f (p + s * q)) t (l * q).
Proof. intros H. apply (derivable_pt_lim_comp (fun s => p + s * q) f); [apply dl_affine|exact H]. Qed.

(* the derivatives of the two scalar losses *)
Lemma one_exp t : 0 < 1 + exp t.
Proof. pose proof (exp_pos t). lra. Qed.
Lemma d_lin_u k u y : derivable_pt_lim (fun u => lin_val k u y) u (lin_u k u y).
Proof. destruct k; cbn [lin_val lin_u]; [apply Grads_Losses.d_logistic|apply Grads_Losses.d_square]. Qed.
Definition lin_y (k : lin_kind) (u y : R) : R := match k with LLogistic => - u / (1 + exp (u * y)) | LQuadratic => - (2 * (u - y)) end.
Lemma d_lin_y k u y : derivable_pt_lim (fun y => lin_val k u y) y (lin_y k u y).
Proof.
  destruct k; cbn [lin_val lin_y].
  - apply (dl_ext (fun s => ln (1 + exp (- (u * s))))); [intros s; rewrite (Rmult_comm u s); reflexivity|apply Grads_Losses.d_logistic].
  - apply (dl_ext (fun s => (s - u) ^ 2)); [intros s; ring|]. apply (dl_eq _ _ (2 * (y - u))); [ring|apply Grads_Losses.d_square].
Qed.
Lemma d_exp_scal v t : derivable_pt_lim (fun s => exp (v * s)) t (v * exp (v * t)).
Proof.
  apply (dl_ext (fun s => exp (0 + s * v))); [intros s; f_equal; ring|]. apply (dl_eq _ _ (exp (0 + t * v) * v)); [rewrite Rmult_comm; do 2 f_equal; ring|].
  apply (dl_comp_affine exp). apply derivable_pt_lim_exp.
Qed.
Lemma d_inv_exp v t : derivable_pt_lim (fun s => / (1 + exp (v * s))) t (- (v * exp (v * t)) / ((1 + exp (v * t)) * (1 + exp (v * t)))).
Proof.
  pose proof (one_exp (v * t)) as P.
  apply (dl_ext (fun s => div_fct (fct_cte 1) (fun s => 1 + exp (v * s)) s)); [intros s; unfold div_fct, fct_cte; apply Rmult_1_l|].
  apply (dl_eq _ _ ((0 * (1 + exp (v * t)) - (0 + v * exp (v * t)) * fct_cte 1 t) / Rsqr (1 + exp (v * t)))).
  - unfold fct_cte, Rsqr. field. lra.
  - apply (derivable_pt_lim_div (fct_cte 1) (fun s => 1 + exp (v * s)) t 0 (0 + v * exp (v * t))); [apply derivable_pt_lim_const| |lra]. apply (derivable_pt_lim_plus (fun _ => 1) (fun s => exp (v * s)) t 0 (v * exp (v * t))); [apply derivable_pt_lim_const|apply d_exp_scal].
Qed.
Lemma d_lin_uu k u y : derivable_pt_lim (fun u => lin_u k u y) u (lin_uu k u y).
Proof.
  destruct k; cbn [lin_u lin_uu].
  - pose proof (one_exp (y * u)). apply (dl_eq _ _ (- y * (- (y * exp (y * u)) / ((1 + exp (y * u)) * (1 + exp (y * u)))))); [field; lra|].
    apply derivable_pt_lim_scal. apply d_inv_exp.
  - apply (dl_ext (fun s => - (2 * y) + s * 2)); [intros; ring|apply dl_affine].
Qed.
Lemma d_lin_yu k u y : derivable_pt_lim (fun u => lin_y k u y) u (lin_uy k u y).
Proof.
  destruct k; cbn [lin_y lin_uy].
  - pose proof (one_exp (y * u)) as P.
    apply (dl_ext (fun s => mult_fct (fun s => - s) (fun s => / (1 + exp (y * s))) s)); [intros s; unfold mult_fct; rewrite (Rmult_comm s y); reflexivity|].
    apply (dl_eq _ _ ((- 1) * / (1 + exp (y * u)) + (- u) * (- (y * exp (y * u)) / ((1 + exp (y * u)) * (1 + exp (y * u)))))); [field; lra|].
    apply (derivable_pt_lim_mult (fun s => - s) (fun s => / (1 + exp (y * s))) u (- 1) (- (y * exp (y * u)) / ((1 + exp (y * u)) * (1 + exp (y * u)))));
      [apply (derivable_pt_lim_opp (fun s => s) u 1); apply derivable_pt_lim_id|apply d_inv_exp].
  - apply (dl_ext (fun s => 2 * y + s * (- 2))); [intros; ring|apply dl_affine].
Qed.

(* the shapes *)
Lemma eye_len d : List.length (eye d) = d.
Proof. induction d as [|d IH]; cbn; [reflexivity|]. f_equal. exact (eq_trans (map_length _ _) IH). Qed.
Lemma eye_rows d : Forall (fun r : vec => List.length r = d) (eye d).
Proof.
  induction d as [|d IH]; cbn; constructor; [cbn; rewrite repeat_length; reflexivity|]. rewrite Forall_map. eapply Forall_impl; [|exact IH]. cbn. intros r Hr. f_equal. exact Hr.
Qed.
Lemma map2_rows {A B} (P : B -> Prop) (Q : vec -> Prop) (f : A -> B -> vec) : (forall x y, P y -> Q (f x y)) -> forall l l', Forall P l' -> Forall Q (map2 f l l').
Proof. intros H l. induction l as [|x l IH]; intros [|y l'] F; cbn; constructor; [apply H; exact (Forall_inv F)|apply IH; exact (Forall_inv_tail F)]. Qed.
Lemma hess_x_len k w b x y : List.length (hess_x k w b x y) = List.length w.
Proof. unfold hess_x. cbn zeta. rewrite map2_length; [reflexivity|exact (eq_sym (eye_len _))]. Qed.
Lemma hess_x_rows k w b x y : List.length x = List.length w -> Forall (fun r : vec => List.length r = List.length w) (hess_x k w b x y).
Proof.
  intros H. unfold hess_x. cbn zeta. apply (map2_rows (fun r : vec => List.length r = List.length w)); [|apply eye_rows].
  intros wi ei E. rewrite vadd_length; rewrite ?vscal_length; congruence.
Qed.
Lemma dot_rep0 d x : dot (repeat 0 d) x = 0.
Proof. revert x. induction d as [|d IH]; intros [|a x]; try reflexivity. unfold dot in *. cbn. rewrite IH. ring. Qed.
Lemma eye_apply a : matvec (eye (List.length a)) a = a.
Proof.
  induction a as [|c a IH]; [reflexivity|]. cbn [eye List.length]. change (matvec ((1 :: repeat 0 (List.length a)) :: map (cons 0) (eye (List.length a))) (c :: a))
    with (dot (1 :: repeat 0 (List.length a)) (c :: a) :: matvec (map (cons 0) (eye (List.length a))) (c :: a)).
  f_equal.
  - change (1 * c + dot (repeat 0 (List.length a)) a = c). rewrite dot_rep0. ring.
  - rewrite <- IH at 3. unfold matvec. rewrite map_map. apply map_ext. intros r. change (0 * c + dot r a = dot r a). ring.
Qed.
(* the matrix applied to a *)
Lemma hess_x_apply k w b x y a : List.length x = List.length w -> List.length a = List.length w ->
  matvec (hess_x k w b x y) a = vadd (vscal (lin_uu k (dot w x + b) y * dot x a) w) (vscal (lin_u k (dot w x + b) y) a).
Proof.
  intros Hx Ha. unfold hess_x. cbn zeta. set (p := lin_uu k (dot w x + b) y). set (q := lin_u k (dot w x + b) y).
  assert (G : forall w' (E : list vec), Forall (fun r : vec => List.length r = List.length a) E -> List.length w' = List.length E ->
    matvec (map2 (fun wi ei => vadd (vscal (p * wi) x) (vscal q ei)) w' E) a = vadd (vscal (p * dot x a) w') (vscal q (matvec E a))).
  { induction w' as [|wi w' IH]; intros [|e E] HF HL; try discriminate; [reflexivity|]. cbn [map2 matvec map vscal vadd]. f_equal.
    - pose proof (Forall_inv HF) as He. cbn in He. rewrite dot_vadd_l, !dot_vscal_l by (rewrite ?vscal_length; congruence). ring.
    - apply IH; [exact (Forall_inv_tail HF)|]. cbn in HL. congruence. }
  rewrite G; [rewrite <- Ha, eye_apply; reflexivity|rewrite Ha; apply eye_rows|rewrite eye_len; reflexivity].
Qed.
Lemma hess_cat_len hx hy : List.length hx = List.length hy -> List.length (hess_cat hx hy) = List.length hx.
Proof. intros H. unfold hess_cat. apply map2_length. exact H. Qed.
Lemma hess_cat_rows d hx : forall hy, Forall (fun r : vec => List.length r = d) hx -> rows_ok (S d) (hess_cat hx hy).
Proof.
  unfold rows_ok, hess_cat. induction hx as [|r hx IH]; intros [|c hy] F; cbn; constructor; [|apply IH; exact (Forall_inv_tail F)].
  pose proof (Forall_inv F) as Hr. cbn in Hr. rewrite app_length, Hr. cbn. lia.
Qed.
(* applied to (a, c): the derivative along a plus c times the derivative in the label *)
Lemma hess_cat_apply d hx : forall hy a c, Forall (fun r : vec => List.length r = d) hx -> List.length hx = List.length hy -> List.length a = d ->
  matvec (hess_cat hx hy) (a ++ [c]) = vadd (matvec hx a) (vscal c hy).
Proof.
  unfold hess_cat. induction hx as [|r hx IH]; intros [|h hy] a c F L Ha; try discriminate; [reflexivity|].
  cbn [map2 matvec map vadd vscal]. f_equal.
  - pose proof (Forall_inv F) as Hr. cbn in Hr. rewrite dot_app by congruence. unfold dot at 2. cbn. ring.
  - apply IH; [exact (Forall_inv_tail F)| |exact Ha]. cbn in L. congruence.
Qed.

(* the loop *)
Lemma all_hess_inv k w b X : forall ys Hs, all_hess k w b X ys = Ok Hs ->
  (List.length X <= List.length ys)%nat /\ Forall (fun x : vec => List.length x = List.length w) X /\ (X <> [] -> List.length w <> 1%nat) /\
  Hs = map2 (fun x y => hess_cat (hess_x k w b x y) (hess_y k w b x y)) X ys.
Proof.
  induction X as [|x X IH]; intros ys Hs; cbn [all_hess].
  - intros H. inversion H. repeat split; [cbn; lia|constructor|congruence].
  - destruct ys as [|y ys]; cbn [hd_error sample_hess tl bind]; [discriminate|].
    destruct (Nat.eqb (List.length x) (List.length w)) eqn:E; cbn; [|discriminate]. apply Nat.eqb_eq in E.
    destruct (Nat.eqb (List.length w) 1) eqn:E1; cbn; [discriminate|]. apply Nat.eqb_neq in E1.
    destruct (all_hess k w b X ys) as [Hs'|e] eqn:Er; cbn; [|discriminate]. intros H. inversion H; subst Hs. clear H.
    destruct (IH ys Hs' Er) as (A & B & _ & D). repeat split; [cbn; lia|constructor; assumption|intros _; exact E1|]. rewrite <- D. reflexivity.
Qed.
Lemma all_hess_ok k w b X : forall ys, (List.length X <= List.length ys)%nat -> Forall (fun x : vec => List.length x = List.length w) X -> List.length w <> 1%nat ->
  all_hess k w b X ys = Ok (map2 (fun x y => hess_cat (hess_x k w b x y) (hess_y k w b x y)) X ys).
Proof.
  induction X as [|x X IH]; intros ys L F N; [destruct ys; reflexivity|]. destruct ys as [|y ys]; [cbn in L; lia|].
  cbn [all_hess hd_error sample_hess tl map2]. rewrite (proj2 (Nat.eqb_eq _ _) (Forall_inv F)), (proj2 (Nat.eqb_neq _ _) N). cbn [negb bind].
  rewrite IH; [reflexivity|cbn in L; lia|exact (Forall_inv_tail F)|exact N].
Qed.
Lemma hess_list_ok k w b X : forall ys, Forall (fun x : vec => List.length x = List.length w) X ->
  hess_ok (S (List.length w)) (map2 (fun x y => hess_cat (hess_x k w b x y) (hess_y k w b x y)) X ys).
Proof.
  unfold hess_ok. induction X as [|x X IH]; intros [|y ys] F; cbn; constructor; [|apply IH; exact (Forall_inv_tail F)].
  apply hess_cat_rows. apply hess_x_rows. exact (Forall_inv F).
Qed.
Lemma hess_list_len {A B C} (f : A -> B -> C) X : forall ys, (List.length X <= List.length ys)%nat -> List.length (map2 f X ys) = List.length X.
Proof. induction X as [|x X IH]; intros [|y ys] L; cbn in *; try reflexivity; [lia|]. rewrite IH; [reflexivity|lia]. Qed.
