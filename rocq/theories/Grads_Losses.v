(* The gradients of the losses of the estimators, by the rules of Gradient.v. *)
From Coq Require Import Reals List Bool Arith Lra Lia.
From Verif Require Import PyBase RList Gradient Loss_Model Loss_Spec EstDual_Proofs.
Import ListNotations.
Local Open Scope R_scope.
Local Notation length := List.length.

Lemma dlim_ext f g t l : (forall s, f s = g s) -> derivable_pt_lim f t l -> derivable_pt_lim g t l.
Proof. intros E H e He. destruct (H e He) as (d & Hd). exists d. intros h H1 H2. rewrite <- !E. apply Hd; assumption. Qed.
Lemma dlim_eq f t l l' : l = l' -> derivable_pt_lim f t l -> derivable_pt_lim f t l'.
Proof. intros ->. auto. Qed.
(* a function that is affine near t *)
Lemma dlim_near f t a d : 0 < d -> (forall h, Rabs h < d -> f (t + h) = f t + a * h) -> derivable_pt_lim f t a.
Proof.
  intros Hd H e He. exists (mkposreal d Hd). intros h Nh Hh. simpl in Hh. rewrite (H h Hh). replace ((f t + a * h - f t) / h - a) with 0 by (field; exact Nh). rewrite Rabs_R0. exact He.
Qed.

(* ---------- squared residual ---------- *)
Lemma d_square v t : derivable_pt_lim (fun s => (s - v) ^ 2) t (2 * (t - v)).
Proof.
  intros e He. exists (mkposreal e He). intros h Nh Hh. simpl in Hh. replace (((t + h - v) ^ 2 - (t - v) ^ 2) / h - 2 * (t - v)) with h by (simpl; field; exact Nh). exact Hh.
Qed.
Lemma quad_grad_x wt b v c x : length wt = length x -> is_gradient (fun x => (dot wt x + b - v) ^ 2 + c) x (vscal (2 * (dot wt x + b - v)) wt).
Proof. intros L. apply gradient_shift. apply (gradient_affine (fun s => (s - v) ^ 2)); [exact L|apply d_square]. Qed.
Lemma quad_grad_y s c v : is_gradient (fun l => (s - hd 0 l) ^ 2 + c) [v] [2 * (v - s)].
Proof.
  apply gradient_shift. assert (G : is_gradient (fun l => (dot [1] l + 0 - s) ^ 2) [v] (vscal (2 * (v - s)) [1])).
  { apply (gradient_affine (fun t => (t - s) ^ 2)); [reflexivity|]. replace (2 * (v - s)) with (2 * (dot [1] [v] + 0 - s)) by (unfold dot; simpl; ring). apply d_square. }
  cbn [vscal map] in G. rewrite Rmult_1_r in G. revert G. apply gradient_ext. intros l Ll. destruct l as [|a [|]]; try discriminate. unfold dot. simpl. ring.
Qed.

(* ---------- logistic ---------- *)
Lemma d_logistic v t : derivable_pt_lim (fun s => ln (1 + exp (- (v * s)))) t (- v / (1 + exp (v * t))).
Proof.
  assert (P : 0 < 1 + exp (- (v * t))) by (pose proof (exp_pos (- (v * t))); lra).
  assert (A : derivable_pt_lim (fun s => - (v * s)) t (- v)).
  { apply (dlim_near _ _ _ 1); [lra|]. intros h _. ring. }
  assert (B : derivable_pt_lim (fun s => exp (- (v * s))) t (exp (- (v * t)) * - v)).
  { apply (derivable_pt_lim_comp (fun s => - (v * s)) exp); [exact A|apply derivable_pt_lim_exp]. }
  assert (C : derivable_pt_lim (fun s => 1 + exp (- (v * s))) t (0 + exp (- (v * t)) * - v)).
  { apply (derivable_pt_lim_plus (fun _ => 1) (fun s => exp (- (v * s)))); [apply derivable_pt_lim_const|exact B]. }
  refine (dlim_eq _ _ _ _ _ (derivable_pt_lim_comp (fun s => 1 + exp (- (v * s))) ln t _ _ C (derivable_pt_lim_ln _ P))).
  rewrite exp_Ropp in *. pose proof (exp_pos (v * t)). field. split; lra.
Qed.
Lemma logit_grad_x wt b v c x : length wt = length x ->
  is_gradient (fun x => ln (1 + exp (- (v * (dot wt x + b)))) + c) x (vscal (- v / (1 + exp (v * (dot wt x + b)))) wt).
Proof. intros L. apply gradient_shift. apply (gradient_affine (fun s => ln (1 + exp (- (v * s))))); [exact L|apply d_logistic]. Qed.
Lemma logit_grad_y s c v : is_gradient (fun l => ln (1 + exp (- (hd 0 l * s))) + c) [v] [- s / (1 + exp (v * s))].
Proof.
  apply gradient_shift. assert (G : is_gradient (fun l => ln (1 + exp (- (s * (dot [1] l + 0))))) [v] (vscal (- s / (1 + exp (s * (dot [1] [v] + 0)))) [1])).
  { apply (gradient_affine (fun t => ln (1 + exp (- (s * t))))); [reflexivity|apply d_logistic]. }
  assert (E : vscal (- s / (1 + exp (s * (dot [1] [v] + 0)))) [1] = [- s / (1 + exp (v * s))]).
  { cbn [vscal map]. rewrite Rmult_1_r. do 4 f_equal. unfold dot. simpl. ring. }
  rewrite E in G. revert G. apply gradient_ext. intros l Ll. destruct l as [|a [|]]; try discriminate. unfold dot. simpl. do 4 f_equal. ring.
Qed.

(* ---------- distances ---------- *)
Lemma weber_grad_x pos v c x : length pos = length x -> norm2 (vsub x pos) <> 0 ->
  is_gradient (fun x => v * sqrt (sqnorm (vsub x pos)) + c) x (vscal (v / norm2 (vsub x pos)) (vsub x pos)).
Proof.
  intros L N. apply gradient_shift. pose proof (gradient_scal v _ _ _ (gradient_dist pos x L N)) as G. unfold vscal in *. rewrite map_map in G.
  rewrite (map_ext (fun a => v * (/ norm2 (vsub x pos) * a)) (Rmult (v / norm2 (vsub x pos)))) in G by (intros a; unfold Rdiv; ring). exact G.
Qed.
Lemma weber_grad_y s c v : is_gradient (fun l => hd 0 l * s + c) [v] [s].
Proof. apply (gradient_dot_const _ _ _ c); [reflexivity|]. intros l Ll. destruct l as [|a [|]]; try discriminate. unfold dot. simpl. ring. Qed.

(* ---------- newsvendor ---------- *)
Lemma nv_grad k u theta v : v <> theta -> is_gradient (fun x => k * theta - u * Rmin theta (hd 0 x)) [v] [if Rlt_dec v theta then - u else 0].
Proof.
  intros N. set (a := if Rlt_dec v theta then - u else 0).
  assert (G : is_gradient (fun x => k * theta - u * Rmin theta (dot [1] x + 0)) [v] (vscal a [1])).
  { apply (gradient_affine (fun t => k * theta - u * Rmin theta t)); [reflexivity|].
    assert (Ev : dot [1] [v] + 0 = v) by (unfold dot; simpl; ring). rewrite Ev. clear Ev. assert (P : 0 < Rabs (v - theta)) by (apply Rabs_pos_lt; lra).
    apply (dlim_near _ _ _ (Rabs (v - theta)) P). intros h Hh. subst a. unfold Rabs in Hh. destruct (Rlt_dec v theta) as [Q|Q].
    - assert (v + h < theta) by (destruct (Rcase_abs (v - theta)), (Rcase_abs h); lra). rewrite !Rmin_right by lra. ring.
    - assert (theta < v + h) by (destruct (Rcase_abs (v - theta)), (Rcase_abs h); lra). rewrite !Rmin_left by lra. ring. }
  cbn [vscal map] in G. rewrite Rmult_1_r in G. revert G. apply gradient_ext. intros l Ll. destruct l as [|x [|]]; try discriminate. unfold dot. simpl. do 3 f_equal. ring.
Qed.

(* ---------- portfolio ---------- *)
Lemma risk_grad eta alpha w tau x : length w = length x -> dot w x <> - tau ->
  is_gradient (risk_loss eta alpha w tau) x (vscal (if Rlt_dec (dot w x) (- tau) then - 1 - eta / alpha else - 1) w).
Proof.
  intros L N. set (a := if Rlt_dec (dot w x) (- tau) then - 1 - eta / alpha else - 1).
  assert (G : is_gradient (fun y => (fun r => - r + eta * (tau + Rmax (- r - tau) 0 / alpha)) (dot w y + 0)) x (vscal a w)).
  { apply (gradient_affine (fun r => - r + eta * (tau + Rmax (- r - tau) 0 / alpha))); [exact L|]. rewrite Rplus_0_r. set (r := dot w x) in *. assert (P : 0 < Rabs (r + tau)) by (apply Rabs_pos_lt; lra).
    apply (dlim_near _ _ _ (Rabs (r + tau)) P). intros h Hh. subst a. unfold Rabs in Hh. destruct (Rlt_dec r (- tau)) as [Q|Q].
    - assert (r + h < - tau) by (destruct (Rcase_abs (r + tau)), (Rcase_abs h); lra). rewrite !Rmax_left by lra. unfold Rdiv. ring.
    - assert (- tau < r + h) by (destruct (Rcase_abs (r + tau)), (Rcase_abs h); lra). rewrite !Rmax_right by lra. unfold Rdiv. ring. }
  revert G. apply gradient_ext. intros y _. unfold risk_loss. cbv beta. rewrite Rplus_0_r. reflexivity.
Qed.

(* ---------- cross-entropy ---------- *)
Lemma map2_combine {A B C} (f : A -> B -> C) l m : map2 f l m = map (fun p => f (fst p) (snd p)) (List.combine l m).
Proof. revert m. induction l as [|a l IH]; intros [|b m]; simpl; auto. rewrite IH. reflexivity. Qed.
Lemma fold_length {A} (g : A -> vec) x l : (forall a, In a l -> length (g a) = length x) -> length (fold_right vadd (vscal 0 x) (map g l)) = length x.
Proof.
  induction l as [|a l IH]; intros H; cbn [map fold_right]; [apply vscal_length|]. rewrite vadd_length; [apply H; left; reflexivity|].
  rewrite IH; [apply H; left; reflexivity|]. intros b Hb. apply H. right. exact Hb.
Qed.
Lemma dot_fold {A} (g : A -> vec) x l h : (forall a, In a l -> length (g a) = length x) -> length h = length x ->
  dot (fold_right vadd (vscal 0 x) (map g l)) h = rsum (map (fun a => dot (g a) h) l).
Proof.
  intros H Lh. induction l as [|a l IH]; cbn [map fold_right rsum]; [rewrite dot_vscal_l; ring|].
  assert (F : length (fold_right vadd (vscal 0 x) (map g l)) = length x) by (apply fold_length; intros b Hb; apply H; right; exact Hb).
  assert (Ga : length (g a) = length x) by (apply H; left; reflexivity). unfold vec in *.
  rewrite dot_vadd_l, IH; [reflexivity|intros b Hb; apply H; right; exact Hb|congruence|congruence].
Qed.
(* the gradient in the data: sum_k (Q p_k - q_k) w_k with p the class probabilities and Q the total weight of the target *)
Definition ce_data (d : nat) (wts : list vec) (bs l x : vec) : vec :=
  combination d (map2 (fun s q => rsum l * (exp s / rsum (map exp (scores wts bs x))) - q) (scores wts bs x) l) wts.
Definition ce_labels (wts : list vec) (bs x : vec) : vec := map (fun s => ln (rsum (map exp (scores wts bs x))) - s) (scores wts bs x).

Lemma ce_split (S l : list R) Z : length S = length l -> - rsum (map2 (fun s q => q * (s - Z)) S l) = rsum (map2 (fun s q => - q * s) S l) + rsum l * Z.
Proof. revert l. induction S as [|s S IH]; intros [|q l] L; try discriminate; simpl; [ring|]. injection L as L. specialize (IH l L). lra. Qed.
Lemma scores_map wts bs x : scores wts bs x = map (fun p => dot (fst p) x + snd p) (List.combine wts bs).
Proof. unfold scores. rewrite map2_combine. apply map_ext. intros p. rewrite dot_comm. reflexivity. Qed.

Lemma ce_grad_x d wts bs l c x : length bs = length wts -> length l = length wts -> Forall (fun w => length w = d) wts -> length x = d -> wts <> [] ->
  is_gradient (fun x => - rsum (map2 (fun s q => q * (s - ln (rsum (map exp (scores wts bs x))))) (scores wts bs x) l) + c) x (ce_data d wts bs l x).
Proof.
  intros Lb Ll Fw Lx Nw. apply gradient_shift. set (ps := List.combine wts bs). set (sc := fun (p : vec * R) x => dot (fst p) x + snd p).
  assert (Lp : length ps = length wts) by (unfold ps; rewrite combine_length; unfold vec in *; lia).
  assert (Fp : forall p, In p ps -> length (fst p) = length x).
  { intros [w b] Hp. apply in_combine_l in Hp. rewrite Forall_forall in Fw. cbn [fst]. rewrite (Fw w Hp). congruence. }
  assert (ES : forall y, scores wts bs y = map (fun p => sc p y) ps) by (intros y; apply scores_map).
  assert (Gs : forall p, In p ps -> is_gradient (sc p) x (fst p)) by (intros p Hp; apply gradient_shift, gradient_dot; auto).
  set (Z := rsum (map exp (scores wts bs x))).
  assert (HZ : 0 < Z).
  { unfold Z. apply rsum_pos; [|apply Forall_forall; intros v Hv; apply in_map_iff in Hv; destruct Hv as (s & <- & _); apply exp_pos].
    rewrite ES. destruct ps; [destruct wts; [congruence|discriminate]|discriminate]. }
  assert (G1 : is_gradient (fun y => rsum (map (fun pq => - snd pq * sc (fst pq) y) (List.combine ps l))) x
                 (fold_right vadd (vscal 0 x) (map (fun pq => vscal (- snd pq) (fst (fst pq))) (List.combine ps l)))).
  { apply (gradient_sum (fun pq y => - snd pq * sc (fst pq) y)). intros [p q] Hpq. apply in_combine_l in Hpq. cbn [fst snd]. apply gradient_scal. apply Gs. exact Hpq. }
  assert (G2 : is_gradient (fun y => rsum (map (fun p => exp (sc p y)) ps)) x (fold_right vadd (vscal 0 x) (map (fun p => vscal (exp (sc p x)) (fst p)) ps))).
  { apply (gradient_sum (fun p y => exp (sc p y))). intros p Hp. apply (gradient_comp exp (sc p)); [apply derivable_pt_lim_exp|apply Gs; exact Hp]. }
  assert (EZ : rsum (map (fun p => exp (sc p x)) ps) = Z) by (unfold Z; rewrite ES, map_map; reflexivity).
  assert (G3 : is_gradient (fun y => rsum l * ln (rsum (map (fun p => exp (sc p y)) ps))) x
                 (vscal (rsum l) (vscal (/ Z) (fold_right vadd (vscal 0 x) (map (fun p => vscal (exp (sc p x)) (fst p)) ps))))).
  { apply gradient_scal. apply (gradient_comp ln (fun y => rsum (map (fun p => exp (sc p y)) ps))); [|exact G2]. rewrite EZ. apply derivable_pt_lim_ln. exact HZ. }
  pose proof (gradient_plus _ _ _ _ _ G1 G3) as G.
  apply (gradient_ext _ (fun y => - rsum (map2 (fun s q => q * (s - ln (rsum (map exp (scores wts bs y))))) (scores wts bs y) l))) in G.
  2:{ intros y _. rewrite ce_split by (rewrite ES, map_length; unfold vec in *; congruence). rewrite ES, map2_map_l, map2_combine, map_map. reflexivity. }
  assert (F1 : forall a : vec * R * R, In a (List.combine ps l) -> length (vscal (- snd a) (fst (fst a))) = length x).
  { intros [p q] Hpq. apply in_combine_l in Hpq. cbn [fst snd]. rewrite vscal_length. apply Fp. exact Hpq. }
  assert (F2 : forall p, In p ps -> length (vscal (exp (sc p x)) (fst p)) = length x) by (intros p Hp; rewrite vscal_length; apply Fp; exact Hp).
  pose proof (fold_length _ x _ F1) as L1. pose proof (fold_length _ x _ F2) as L2.
  refine (gradient_same _ _ _ _ G _ _).
  - unfold ce_data. rewrite combination_length by exact Fw. rewrite vadd_length; unfold vec in *; [congruence|]. rewrite !vscal_length. congruence.
  - intros h Lh. unfold vec in *. rewrite dot_vadd_l by (rewrite ?vscal_length; congruence). rewrite !dot_vscal_l.
    pose proof (dot_fold _ x _ h F1 Lh) as D1. pose proof (dot_fold _ x _ h F2 Lh) as D2. unfold vec in *. rewrite D1, D2. clear D1 D2. unfold ce_data. rewrite (dot_combination d _ wts h Fw) by congruence. fold Z. rewrite ES.
    generalize (rsum l) as Q. intros Q. assert (NZ : Z <> 0) by lra. clearbody Z. clear -Lb Ll NZ. subst ps. revert bs l Lb Ll.
    induction wts as [|w wts IH]; intros [|b bs] [|q l] Lb Ll; try discriminate; [simpl; field; exact NZ|].
    injection Lb as Lb. injection Ll as Ll. cbn [List.combine map map2 rsum fst snd]. rewrite (IH bs l Lb Ll), !dot_vscal_l. field. exact NZ.
Qed.
Lemma ce_grad_y wts bs x c (l : vec) : length bs = length wts -> length l = length wts ->
  is_gradient (fun l => - rsum (map2 (fun s q => q * (s - ln (rsum (map exp (scores wts bs x))))) (scores wts bs x) l) + c) l (ce_labels wts bs x).
Proof.
  intros Lb Ll. set (Z := ln (rsum (map exp (scores wts bs x)))). unfold ce_labels. fold Z. assert (LS : length (scores wts bs x) = length l).
  { unfold scores. rewrite map2_length by (unfold vec in *; congruence). unfold vec in *. congruence. }
  apply (gradient_dot_const _ _ _ c); [rewrite map_length; exact LS|]. intros m Lm. f_equal. unfold dot. rewrite map2_map_l. assert (E : length (scores wts bs x) = length m) by congruence. clearbody Z. clear -E.
  revert m E. induction (scores wts bs x) as [|s S IH]; intros [|q m] E; try discriminate; simpl; [ring|]. injection E as E. specialize (IH m E). rewrite <- IH. ring.
Qed.
