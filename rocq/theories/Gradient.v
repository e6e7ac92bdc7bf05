(* Small library: the gradient of a function of a vector (first-order expansion with a remainder negligible before the step), and the
   rules to compute it. *)
From Coq Require Import Reals List Lra Lia Arith.
From Verif Require Import PyBase RList.
Import ListNotations.
Local Open Scope R_scope.

(* f (x + h) = f x + <g, h> + o (|h|) *)
Definition is_gradient (f : vec -> R) (x g : vec) : Prop :=
  length g = length x /\
  forall e, 0 < e -> exists d, 0 < d /\ forall h, length h = length x -> norm2 h < d ->
    Rabs (f (vadd x h) - f x - dot g h) <= e * norm2 h.
(* an operator that returns the gradient of any function at any point where there is one *)
Definition differentiates (D : (vec -> R) -> vec -> vec) : Prop := forall f x g, is_gradient f x g -> D f x = g.

Lemma abs_dot x y : length x = length y -> Rabs (dot x y) <= norm2 x * norm2 y.
Proof.
  intros L. apply Rabs_le. split; [|apply cauchy_schwarz; exact L].
  assert (H : dot (vscal (-1) x) y <= norm2 (vscal (-1) x) * norm2 y) by (apply cauchy_schwarz; rewrite vscal_length; exact L).
  rewrite dot_vscal_l, norm2_vscal, Rabs_left in H by lra. lra.
Qed.

Lemma abs_le_inv a b : Rabs a <= b -> - b <= a <= b.
Proof. unfold Rabs. destruct (Rcase_abs a); lra. Qed.
Lemma gradient_ext f f' x g : (forall y, length y = length x -> f y = f' y) -> is_gradient f x g -> is_gradient f' x g.
Proof.
  intros E [L H]. split; [exact L|]. intros e He. destruct (H e He) as (d & Hd & Hh). exists d. split; [exact Hd|]. intros h Lh Nh.
  rewrite <- !E; [apply Hh; assumption|reflexivity|rewrite vadd_length; auto].
Qed.
Lemma gradient_const c x : is_gradient (fun _ => c) x (vscal 0 x).
Proof.
  split; [apply vscal_length|]. intros e He. exists 1. split; [lra|]. intros h Lh _. rewrite dot_vscal_l, Rmult_0_l.
  replace (c - c - 0) with 0 by ring. rewrite Rabs_R0. apply Rmult_le_pos; [lra|apply norm2_nonneg].
Qed.
Lemma gradient_dot w x : length w = length x -> is_gradient (dot w) x w.
Proof.
  intros L. split; [exact L|]. intros e He. exists 1. split; [lra|]. intros h Lh _. rewrite dot_vadd_r by congruence.
  replace (dot w x + dot w h - dot w x - dot w h) with 0 by ring. rewrite Rabs_R0. apply Rmult_le_pos; [lra|apply norm2_nonneg].
Qed.
Lemma gradient_plus f f' x g g' : is_gradient f x g -> is_gradient f' x g' -> is_gradient (fun y => f y + f' y) x (vadd g g').
Proof.
  intros [L H] [L' H']. split; [rewrite vadd_length; congruence|]. intros e He. destruct (H (e / 2) ltac:(lra)) as (d & Hd & Hh). destruct (H' (e / 2) ltac:(lra)) as (d' & Hd' & Hh').
  exists (Rmin d d'). split; [apply Rmin_pos; assumption|]. intros h Lh Nh. specialize (Hh h Lh ltac:(apply Rlt_le_trans with (1 := Nh); apply Rmin_l)).
  specialize (Hh' h Lh ltac:(apply Rlt_le_trans with (1 := Nh); apply Rmin_r)). rewrite dot_vadd_l by congruence.
  replace (f (vadd x h) + f' (vadd x h) - (f x + f' x) - (dot g h + dot g' h)) with ((f (vadd x h) - f x - dot g h) + (f' (vadd x h) - f' x - dot g' h)) by ring.
  eapply Rle_trans; [apply Rabs_triang|]. lra.
Qed.
Lemma gradient_shift f x g c : is_gradient f x g -> is_gradient (fun y => f y + c) x g.
Proof.
  intros [L H]. split; [exact L|]. intros e He. destruct (H e He) as (d & Hd & Hh). exists d. split; [exact Hd|]. intros h Lh Nh.
  replace (f (vadd x h) + c - (f x + c) - dot g h) with (f (vadd x h) - f x - dot g h) by ring. apply Hh; assumption.
Qed.

(* composition with a differentiable function of one variable *)
Lemma gradient_comp phi f x g l : derivable_pt_lim phi (f x) l -> is_gradient f x g -> is_gradient (fun y => phi (f y)) x (vscal l g).
Proof.
  intros Hp [L H]. split; [rewrite vscal_length; exact L|]. intros e He.
  set (K := norm2 g + 1). assert (HK : 0 < K) by (pose proof (norm2_nonneg g); unfold K; lra).
  set (e1 := e / (2 * K)). assert (He1 : 0 < e1) by (unfold e1; apply Rdiv_lt_0_compat; lra).
  destruct (Hp e1 He1) as (d1 & Hd1). 
  set (e2 := Rmin 1 (e / (2 * (Rabs l + 1)))).
  assert (Hl : 0 < Rabs l + 1) by (pose proof (Rabs_pos l); lra).
  assert (He2 : 0 < e2) by (unfold e2; apply Rmin_pos; [lra|apply Rdiv_lt_0_compat; lra]).
  destruct (H e2 He2) as (d2 & Hd2 & Hh). exists (Rmin d2 (d1 / K)). split; [apply Rmin_pos; [exact Hd2|apply Rdiv_lt_0_compat; [apply cond_pos|exact HK]]|].
  intros h Lh Nh. assert (N2 : norm2 h < d2) by (apply Rlt_le_trans with (1 := Nh); apply Rmin_l).
  assert (N1 : norm2 h < d1 / K) by (apply Rlt_le_trans with (1 := Nh); apply Rmin_r).
  pose proof (norm2_nonneg h) as P. specialize (Hh h Lh N2). set (t := f (vadd x h) - f x) in *.
  assert (Ht : Rabs t <= K * norm2 h).
  { replace t with ((t - dot g h) + dot g h) by ring. eapply Rle_trans; [apply Rabs_triang|]. pose proof (abs_dot g h ltac:(congruence)) as C.
    assert (e2 * norm2 h <= 1 * norm2 h) by (apply Rmult_le_compat_r; [exact P|apply Rmin_l]). unfold K. lra. }
  assert (Hphi : Rabs (phi (f (vadd x h)) - phi (f x) - l * t) <= e1 * Rabs t).
  { destruct (Req_dec t 0) as [Z|Z].
    - replace (f (vadd x h)) with (f x) by (unfold t in Z; lra). rewrite Z, Rabs_R0. replace (phi (f x) - phi (f x) - l * 0) with 0 by ring. rewrite Rabs_R0. lra.
    - assert (T : Rabs t < d1).
      { apply Rle_lt_trans with (1 := Ht). apply Rmult_lt_compat_l with (r := K) in N1; [|exact HK]. replace (K * (d1 / K)) with (pos d1) in N1 by (field; lra). exact N1. }
      specialize (Hd1 t Z T). replace (f (vadd x h)) with (f x + t) by (unfold t; ring).
      replace (phi (f x + t) - phi (f x) - l * t) with (((phi (f x + t) - phi (f x)) / t - l) * t) by (field; exact Z). rewrite Rabs_mult.
      apply Rmult_le_compat_r; [apply Rabs_pos|]. lra. }
  rewrite dot_vscal_l. replace (phi (f (vadd x h)) - phi (f x) - l * dot g h) with ((phi (f (vadd x h)) - phi (f x) - l * t) + l * (t - dot g h)) by ring.
  eapply Rle_trans; [apply Rabs_triang|]. rewrite Rabs_mult.
  assert (A : e1 * Rabs t <= e / 2 * norm2 h).
  { apply Rle_trans with (e1 * (K * norm2 h)); [apply Rmult_le_compat_l; lra|]. unfold e1. right. field. lra. }
  assert (B : Rabs l * Rabs (t - dot g h) <= e / 2 * norm2 h).
  { apply Rle_trans with (Rabs l * (e2 * norm2 h)); [apply Rmult_le_compat_l; [apply Rabs_pos|exact Hh]|].
    assert (Q : Rabs l * e2 <= e / 2).
    { apply Rle_trans with ((Rabs l + 1) * (e / (2 * (Rabs l + 1)))); [|right; field; lra]. apply Rmult_le_compat; [apply Rabs_pos|lra|lra|apply Rmin_r]. }
    replace (Rabs l * (e2 * norm2 h)) with (Rabs l * e2 * norm2 h) by ring. apply Rmult_le_compat_r; assumption. }
  lra.
Qed.
Lemma gradient_scal c f x g : is_gradient f x g -> is_gradient (fun y => c * f y) x (vscal c g).
Proof.
  intros H. apply (gradient_comp (fun t => c * t)); [|exact H]. assert (P := derivable_pt_lim_scal id c (f x) 1 (derivable_pt_lim_id (f x))).
  rewrite Rmult_1_r in P. exact P.
Qed.
(* an affine function *)
Lemma gradient_affine phi w b x l : length w = length x -> derivable_pt_lim phi (dot w x + b) l -> is_gradient (fun y => phi (dot w y + b)) x (vscal l w).
Proof. intros L H. apply (gradient_comp phi (fun y => dot w y + b)); [exact H|]. apply gradient_shift, gradient_dot, L. Qed.
Lemma vsub_vadd : forall x h p : list R, length h = length x -> length p = length x -> vsub (vadd x h) p = vadd (vsub x p) h.
Proof.
  induction x as [|a x IH]; intros [|c h] [|b p] Lh L; try discriminate; [reflexivity|]. cbn. f_equal; [ring|]. apply IH; [injection Lh; auto|injection L; auto].
Qed.
(* the squared distance and the distance to a point *)
Lemma gradient_sqdist p x : length p = length x -> is_gradient (fun y => sqnorm (vsub y p)) x (vscal 2 (vsub x p)).
Proof.
  intros L. split; [rewrite vscal_length, vsub_length; congruence|]. intros e He. exists e. split; [exact He|]. intros h Lh Nh.
  pose proof (vsub_vadd x h p Lh ltac:(congruence)) as E.
  rewrite E, sqnorm_vadd by (rewrite vsub_length; congruence). rewrite dot_vscal_l.
  replace (sqnorm (vsub x p) + 2 * dot (vsub x p) h + sqnorm h - sqnorm (vsub x p) - 2 * dot (vsub x p) h) with (norm2 h * norm2 h) by (rewrite norm2_sq; ring).
  pose proof (norm2_nonneg h). rewrite Rabs_pos_eq by (apply Rmult_le_pos; assumption). apply Rmult_le_compat_r; lra.
Qed.
Lemma gradient_dist p x : length p = length x -> norm2 (vsub x p) <> 0 -> is_gradient (fun y => norm2 (vsub y p)) x (vscal (/ norm2 (vsub x p)) (vsub x p)).
Proof.
  intros L N. assert (S : 0 < sqnorm (vsub x p)).
  { pose proof (sqnorm_nonneg (vsub x p)). destruct (Rle_lt_or_eq_dec _ _ H) as [H'|H']; [exact H'|]. elim N. unfold norm2. rewrite <- H'. apply sqrt_0. }
  assert (G : is_gradient (fun y => sqrt (sqnorm (vsub y p))) x (vscal (/ (2 * sqrt (sqnorm (vsub x p)))) (vscal 2 (vsub x p)))).
  { apply (gradient_comp sqrt (fun y => sqnorm (vsub y p))); [apply derivable_pt_lim_sqrt; exact S|apply gradient_sqdist; exact L]. }
  assert (E : vscal (/ (2 * sqrt (sqnorm (vsub x p)))) (vscal 2 (vsub x p)) = vscal (/ norm2 (vsub x p)) (vsub x p)).
  { unfold vscal. rewrite map_map. apply map_ext. intros a. unfold norm2 in *. field. exact N. }
  rewrite E in G. exact G.
Qed.
(* a finite sum *)
Lemma gradient_sum {A} (f : A -> vec -> R) (g : A -> vec) x l : (forall a, In a l -> is_gradient (f a) x (g a)) ->
  is_gradient (fun y => rsum (map (fun a => f a y) l)) x (fold_right vadd (vscal 0 x) (map g l)).
Proof.
  induction l as [|a l IH]; intros H; simpl; [apply gradient_const|]. apply (gradient_plus (f a) (fun y => rsum (map (fun a => f a y) l))); [apply H; left; reflexivity|].
  apply IH. intros b Hb. apply H. right. exact Hb.
Qed.

(* there is at most one gradient *)
Lemma gradient_unique f x g g' : is_gradient f x g -> is_gradient f x g' -> g = g'.
Proof.
  intros [L H] [L' H']. set (u := vsub g g'). assert (Lu : length u = length x) by (unfold u; rewrite vsub_length; congruence).
  assert (Z : norm2 u = 0).
  { destruct (Req_dec (norm2 u) 0) as [Z|Z]; [exact Z|exfalso]. pose proof (norm2_nonneg u) as P. assert (N : 0 < norm2 u) by lra.
    set (e := norm2 u / 4). assert (He : 0 < e) by (unfold e; lra). destruct (H e He) as (d & Hd & Hh). destruct (H' e He) as (d' & Hd' & Hh').
    set (c := Rmin d d' / 2 / norm2 u). assert (Hm : 0 < Rmin d d') by (apply Rmin_pos; assumption). assert (Hc : 0 < c) by (unfold c; repeat apply Rdiv_lt_0_compat; lra).
    assert (Nh : norm2 (vscal c u) = Rmin d d' / 2) by (rewrite norm2_vscal, Rabs_pos_eq by lra; unfold c; field; lra).
    assert (Lh : length (vscal c u) = length x) by (rewrite vscal_length; exact Lu).
    specialize (Hh _ Lh ltac:(rewrite Nh; pose proof (Rmin_l d d'); lra)). specialize (Hh' _ Lh ltac:(rewrite Nh; pose proof (Rmin_r d d'); lra)). rewrite Nh in *.
    assert (T : dot g (vscal c u) - dot g' (vscal c u) = c * (norm2 u * norm2 u)).
    { rewrite !dot_vscal_r. assert (Q : dot u u = dot g u - dot g' u) by (unfold u at 1; apply dot_vsub_l; unfold u; rewrite ?vsub_length; congruence).
      rewrite norm2_sq. unfold sqnorm. rewrite Q. ring. }
    assert (V : c * (norm2 u * norm2 u) = Rmin d d' / 2 * norm2 u) by (unfold c; field; lra).
    assert (B : dot g (vscal c u) - dot g' (vscal c u) <= e * (Rmin d d' / 2) + e * (Rmin d d' / 2)).
    { set (fx := f (vadd x (vscal c u)) - f x) in *. apply abs_le_inv in Hh. apply abs_le_inv in Hh'. lra. }
    rewrite T, V in B. unfold e in B. assert (Rmin d d' / 2 * norm2 u > 0) by (apply Rmult_lt_0_compat; lra). lra. }
  apply norm2_zero in Z. unfold u in *. clear -L L' Z. assert (Lg : length g = length g') by congruence. clear L L'. revert g' Lg Z.
  induction g as [|a g IH]; intros [|b g'] Lg Z; try discriminate; [reflexivity|]. injection Lg as Lg. inversion Z; subst. f_equal; [lra|]. apply IH; assumption.
Qed.
Lemma gradient_same f x g g' : is_gradient f x g -> length g' = length g -> (forall h, length h = length x -> dot g' h = dot g h) -> is_gradient f x g'.
Proof.
  intros [L H] E Ed. split; [congruence|]. intros e He. destruct (H e He) as (d & Hd & Hh). exists d. split; [exact Hd|]. intros h Lh Nh. rewrite Ed by exact Lh. apply Hh; assumption.
Qed.
(* sum_k c_k w_k, of vectors of length d *)
Definition combination (d : nat) (cs : list R) (ws : list vec) : vec := fold_right vadd (repeat 0 d) (map2 vscal cs ws).
Lemma combination_length d cs ws : Forall (fun w => length w = d) ws -> length (combination d cs ws) = d.
Proof.
  unfold combination. revert cs. induction ws as [|w ws IH]; intros [|c cs] F; simpl; try apply repeat_length. inversion F; subst.
  rewrite vadd_length; [apply vscal_length|]. rewrite vscal_length. symmetry. apply IH. assumption.
Qed.
Lemma dot_zeros d h : dot (repeat 0 d) h = 0.
Proof. unfold dot. revert h. induction d as [|d IH]; intros [|a h]; simpl; try reflexivity. rewrite IH. ring. Qed.
Lemma dot_combination d cs ws h : Forall (fun w => length w = d) ws -> length h = d -> dot (combination d cs ws) h = rsum (map2 (fun c w => c * dot w h) cs ws).
Proof.
  intros F Lh. revert cs. induction ws as [|w ws IH]; intros [|c cs]; unfold combination; cbn [map2 fold_right rsum]; try apply dot_zeros. inversion F; subst.
  pose proof (combination_length (length h) cs ws ltac:(assumption)) as LC. unfold combination in LC, IH.
  rewrite dot_vadd_l, dot_vscal_l, IH; [reflexivity|assumption|rewrite vscal_length; congruence|congruence].
Qed.
Lemma gradient_dot_const f x g c : length g = length x -> (forall y, length y = length x -> f y = dot g y + c) -> is_gradient f x g.
Proof. intros L E. apply (gradient_ext (fun y => dot g y + c)); [intros y Ly; symmetry; apply E, Ly|]. apply gradient_shift, gradient_dot, L. Qed.
