(* The gradient of the robust objective in the multiplier and the parameters together, and its stationary points. Pure
   mathematics about the objective of Dual_Proofs. *)
From Coq Require Import Reals List Lra Lia Psatz.
From Verif Require Import PyBase RList XReal LogMeanExp Dual_Model Dual_Spec Dual_Proofs Dual2_Proofs Gradient.
Import ListNotations.
Local Open Scope R_scope.
Local Notation length := List.length.

Lemma dot_cons a b (x y : list R) : dot (a :: x) (b :: y) = a * b + dot x y.
Proof. reflexivity. Qed.
Lemma norm2_tl a (h : list R) : norm2 h <= norm2 (a :: h).
Proof. unfold norm2. apply sqrt_le_1_alt. unfold sqnorm, dot. cbn [map2 rsum]. pose proof (Rle_0_sqr a) as Q. unfold Rsqr in Q. lra. Qed.
Lemma vscal0_cons a (x : list R) : vscal 0 (a :: x) = 0 :: vscal 0 x.
Proof. unfold vscal. cbn [map]. f_equal. ring. Qed.
Lemma dot_vscal0 (x h : list R) : dot (vscal 0 x) h = 0.
Proof. rewrite dot_vscal_l. ring. Qed.

(* a function of all arguments but the first *)
Lemma gradient_tl f a x g : is_gradient f x g -> is_gradient (fun v => f (tl v)) (a :: x) (0 :: g).
Proof.
  intros [L H]. split; [cbn; unfold vec in *; congruence|]. intros e He. destruct (H e He) as (d & Hd & Hh). exists d. split; [exact Hd|].
  intros [|b h] Lh Nh; [discriminate|]. cbn [vadd map2 tl]. rewrite dot_cons.
  specialize (Hh h ltac:(injection Lh; auto) ltac:(apply Rle_lt_trans with (2 := Nh); apply norm2_tl)).
  replace (f (map2 Rplus x h) - f x - (0 * b + dot g h)) with (f (vadd x h) - f x - dot g h) by (unfold vadd; ring).
  apply Rle_trans with (1 := Hh). apply Rmult_le_compat_l; [lra|apply norm2_tl].
Qed.
(* the first argument, times a constant *)
Lemma gradient_hd c a x : is_gradient (fun v => c * hd 0 v) (a :: x) (c :: vscal 0 x).
Proof.
  apply (gradient_dot_const _ _ _ 0); [cbn; rewrite vscal_length; reflexivity|]. intros [|b y] Ly; [discriminate|].
  rewrite dot_cons, dot_vscal0. cbn [hd]. ring.
Qed.

Lemma dot_fold {A} (g : A -> vec) (x h : vec) l : length h = length x -> (forall a, In a l -> length (g a) = length x) ->
  length (fold_right vadd (vscal 0 x) (map g l)) = length x /\ dot (fold_right vadd (vscal 0 x) (map g l)) h = rsum (map (fun a => dot (g a) h) l).
Proof.
  intros Lh. induction l as [|a l IH]; intros H; cbn [map fold_right rsum]; [split; [apply vscal_length|apply dot_vscal0]|].
  destruct IH as [E1 E2]; [intros b Hb; apply H; right; exact Hb|]. pose proof (H a (or_introl eq_refl)) as La. unfold vec in *. split.
  - rewrite vadd_length; congruence.
  - rewrite dot_vadd_l by congruence. rewrite E2. reflexivity.
Qed.

(* the soft maximum of functions with gradients *)
Lemma softmaximum_gradient {A} (f : A -> vec -> R) (g : A -> vec) x l eps : l <> [] -> 0 < eps -> (forall a, In a l -> is_gradient (f a) x (g a)) ->
  exists G, is_gradient (fun y => softmaximum eps (map (fun a => f a y) l)) x G /\
    forall h, length h = length x -> dot G h = rsum (map (fun a => exp (f a x / eps) / rsum (map (fun b => exp (f b x / eps)) l) * dot (g a) h) l).
Proof.
  intros Hl He H. set (S := fun y => rsum (map (fun a => exp (f a y / eps)) l)).
  assert (Sp : forall y, 0 < S y).
  { intros y. unfold S. apply rsum_pos; [apply map_neq_nil; exact Hl|]. apply Forall_forall. intros v Hv. apply in_map_iff in Hv. destruct Hv as [a [<- _]]. apply exp_pos. }
  assert (G1 : forall a, In a l -> is_gradient (fun y => exp (f a y / eps)) x (vscal (exp (f a x / eps) / eps) (g a))).
  { intros a Ha. apply (gradient_comp (fun t => exp (t / eps)) (f a)); [|apply H; exact Ha].
    replace (exp (f a x / eps) / eps) with (exp (f a x / eps) * (/ eps)) by reflexivity.
    apply (derivable_pt_lim_comp (fun t => t / eps) exp); [|apply derivable_pt_lim_exp].
    pose proof (derivable_pt_lim_scal id (/ eps) (f a x) 1 (derivable_pt_lim_id (f a x))) as D. rewrite Rmult_1_r in D.
    intros e Hp. destruct (D e Hp) as [d Hd]. exists d. intros h H1 H2. specialize (Hd h H1 H2). unfold mult_real_fct, id in Hd. unfold Rdiv at 2 3.
    rewrite (Rmult_comm (f a x + h)), (Rmult_comm (f a x)). exact Hd. }
  pose proof (gradient_sum (fun a y => exp (f a y / eps)) (fun a => vscal (exp (f a x / eps) / eps) (g a)) x l G1) as GS.
  pose proof (gradient_comp ln S x _ (/ S x) (derivable_pt_lim_ln (S x) (Sp x)) GS) as GL.
  pose proof (gradient_scal eps _ x _ (gradient_shift _ x _ (- ln (INR (length l))) GL)) as GF.
  eexists. split.
  - apply (gradient_ext (fun y => eps * (ln (S y) + - ln (INR (length l))))); [|exact GF].
    intros y _. unfold softmaximum, lme, sumexp, S. rewrite !map_length, !map_map. reflexivity.
  - intros h Lh. rewrite !dot_vscal_l.
    destruct (dot_fold (fun a => vscal (exp (f a x / eps) / eps) (g a)) x h l Lh) as [_ E].
    { intros a Ha. pose proof (proj1 (H a Ha)) as Q. unfold vec in *. rewrite vscal_length. exact Q. }
    rewrite E, <- rsum_map_scal, <- rsum_map_scal. f_equal. apply map_ext. intros a. rewrite dot_vscal_l. fold (S x). pose proof (Sp x). field. lra.
Qed.

Section Joint.
Variable P : Type.
Variable L : vec -> P -> R.
Variable cost : P -> P -> R.

(* G is the average of the gradients g under the adversary A *)
Definition averaged (d : nat) (A : list (list R)) (rows : list (row P)) (g : P -> vec) (G : vec) : Prop :=
  length G = d /\ forall h, length h = d -> dot G h = adv_mean (fun _ z => dot (g z) h) A rows.

Lemma row_gradient lam t (g : P -> vec) r eps : r_zeta r <> [] -> 0 < eps ->
  (forall z, In z (r_zeta r) -> is_gradient (fun t => L t z) t (g z)) ->
  exists G, is_gradient (fun v => soft P (L (tl v)) cost eps (hd 0 v) r) (lam :: t) G /\
    forall b h, length h = length t ->
      dot G (b :: h) = rsum (map2 (fun w z => w * (dot (g z) h - cost (r_xi r) z * b)) (gibbs P (L t) cost eps lam r) (r_zeta r)).
Proof.
  intros Hne He H.
  destruct (softmaximum_gradient (fun z v => L (tl v) z + - cost (r_xi r) z * hd 0 v) (fun z => vadd (0 :: g z) (- cost (r_xi r) z :: vscal 0 t)) (lam :: t) (r_zeta r) eps Hne He) as (G & HG & E).
  - intros z Hz. apply (gradient_plus (fun v => L (tl v) z) (fun v => - cost (r_xi r) z * hd 0 v)); [|apply gradient_hd].
    apply (gradient_tl (fun t => L t z)). apply H; exact Hz.
  - exists G. split.
    + apply (gradient_ext (fun y => softmaximum eps (map (fun a => L (tl y) a + - cost (r_xi r) a * hd 0 y) (r_zeta r)))); [|exact HG].
      intros y _. unfold soft, pen. f_equal. apply map_ext. intros z. ring.
    + intros b h Lh. rewrite E by (cbn; unfold vec in *; congruence). unfold gibbs. rewrite map2_map_l, map2_same. f_equal. apply map_ext_in. intros z Hz. cbn [hd tl].
      pose proof (proj1 (H z Hz)) as Lg. unfold vec in *.
      rewrite dot_vadd_l by (cbn; rewrite ?vscal_length; congruence). rewrite !dot_cons, dot_vscal0.
      replace (rsum (map (fun b0 => exp ((L t b0 + - cost (r_xi r) b0 * lam) / eps)) (r_zeta r))) with (rsum (map (fun z' => exp ((L t z' - lam * cost (r_xi r) z') / eps)) (r_zeta r)))
        by (f_equal; apply map_ext; intros y; do 2 f_equal; ring).
      replace (L t z + - cost (r_xi r) z * lam) with (L t z - lam * cost (r_xi r) z) by ring. ring.
Qed.

Lemma joint_gradient n rows rho lam eps p t (g : P -> vec) G : batch_ok n rows -> 0 < eps ->
  (forall r z, In r rows -> In z (r_zeta r) -> is_gradient (fun t => L t z) t (g z)) ->
  averaged (length t) (map (gibbs P (L t) cost eps lam) rows) rows g G ->
  is_gradient (fun v => objective P (L (tl v)) cost rho (hd 0 v) eps p rows) (lam :: t)
    ((Rpower rho p - adv_mean cost (map (gibbs P (L t) cost eps lam) rows) rows) :: G).
Proof.
  intros Hb He H [LG EG].
  assert (K : exists gs : row P -> vec, forall r, In r rows -> is_gradient (fun v => soft P (L (tl v)) cost eps (hd 0 v) r) (lam :: t) (gs r) /\
    forall b h, length h = length t -> dot (gs r) (b :: h) = rsum (map2 (fun w z => w * (dot (g z) h - cost (r_xi r) z * b)) (gibbs P (L t) cost eps lam r) (r_zeta r))).
  { set (S := fun r => combination (length (lam :: t)) (gibbs P (L t) cost eps lam r) (map (fun z => - cost (r_xi r) z :: g z) (r_zeta r))).
    exists S. intros r Hr. destruct (row_gradient lam t g r eps (batch_nonempty P n rows Hb r Hr) He (fun z Hz => H r z Hr Hz)) as (G' & H1 & H2).
    assert (F : Forall (fun w => length w = length (lam :: t)) (map (fun z => - cost (r_xi r) z :: g z) (r_zeta r))).
    { apply Forall_forall. intros w Hw. apply in_map_iff in Hw. destruct Hw as [z [<- Hz]]. pose proof (proj1 (H r z Hr Hz)) as Q. cbn. unfold vec in *. congruence. }
    assert (D : forall b h, length h = length t -> dot (S r) (b :: h) = rsum (map2 (fun w z => w * (dot (g z) h - cost (r_xi r) z * b)) (gibbs P (L t) cost eps lam r) (r_zeta r))).
    { intros b h Lh. unfold S. rewrite dot_combination; [|exact F|cbn; unfold vec in *; congruence]. rewrite map2_map_r. f_equal. apply map2_in_length. intros w z _ _. rewrite dot_cons. ring. }
    split; [|exact D]. apply (gradient_same _ _ G' (S r) H1).
    - unfold S. rewrite combination_length by exact F. symmetry. exact (proj1 H1).
    - intros [|b h] Lh; [discriminate|]. rewrite D, H2; [reflexivity| |]; cbn in Lh; unfold vec in *; lia. }
  destruct K as (gs & K).
  pose proof (gradient_sum (fun r v => soft P (L (tl v)) cost eps (hd 0 v) r) gs (lam :: t) rows (fun r Hr => proj1 (K r Hr))) as GS.
  pose proof (gradient_plus _ _ _ _ _ (gradient_hd (Rpower rho p) lam t) (gradient_scal (/ INR (length rows)) _ _ _ GS)) as GF.
  apply (gradient_same _ _ (vadd (Rpower rho p :: vscal 0 t) (vscal (/ INR (length rows)) (fold_right vadd (vscal 0 (lam :: t)) (map gs rows))))).
  - apply (gradient_ext (fun y => Rpower rho p * hd 0 y + / INR (length rows) * rsum (map (fun a => soft P (L (tl y)) cost eps (hd 0 y) a) rows))); [|exact GF].
    intros y _. unfold objective, rmean. rewrite map_length. unfold Rdiv.
    change (fun a => soft P (L (tl y)) cost eps (hd 0 y) a) with (soft P (L (tl y)) cost eps (hd 0 y)). ring.
  - rewrite (proj1 GF). cbn. unfold vec in *. congruence.
  - intros [|b h] Lh; [discriminate|]. assert (Lh' : length h = length t) by (cbn in Lh; unfold vec in *; lia).
    destruct (dot_fold gs (lam :: t) (b :: h) rows Lh) as [E1 E2]; [intros r Hr; exact (proj1 (proj1 (K r Hr)))|].
    unfold vec in *. rewrite dot_vadd_l by (cbn [length]; rewrite ?vscal_length; cbn [length] in *; congruence).
    rewrite dot_vscal_l. rewrite E2. rewrite !dot_cons, dot_vscal0.
    rewrite EG by exact Lh'. unfold adv_mean. rewrite !map2_map_l, !map2_same. unfold rmean. rewrite !map_length.
    rewrite (map_ext_in (fun a => dot (gs a) (b :: h))
      (fun r => rsum (map2 (fun w z => w * dot (g z) h) (gibbs P (L t) cost eps lam r) (r_zeta r)) - b * rsum (map2 (fun w z => w * cost (r_xi r) z) (gibbs P (L t) cost eps lam r) (r_zeta r)))).
    + rewrite rsum_map_minus, rsum_map_scal. unfold Rdiv. ring.
    + intros r Hr. rewrite (proj2 (K r Hr) b h Lh').
      replace (b * rsum (map2 (fun w z => w * cost (r_xi r) z) (gibbs P (L t) cost eps lam r) (r_zeta r)))
        with (rsum (map2 (fun w z => b * (w * cost (r_xi r) z)) (gibbs P (L t) cost eps lam r) (r_zeta r))) by apply rsum_map2_scal.
      unfold Rminus. rewrite <- (Rmult_1_l (rsum (map2 (fun w z => b * (w * cost (r_xi r) z)) _ _))), Ropp_mult_distr_l, <- rsum_map2_scal, <- rsum_map2_plus.
      f_equal. apply map2_in_length. intros w z _ _. ring.
Qed.
End Joint.

(* ---------- convex functions of vectors ---------- *)
Definition segment (s : R) (x y : vec) : vec := vadd (vscal s x) (vscal (1 - s) y).
Definition convex_on (d : nat) (f : vec -> R) : Prop :=
  forall s x y, 0 <= s <= 1 -> length x = d -> length y = d -> f (segment s x y) <= s * f x + (1 - s) * f y.

Lemma segment_length s (x y : vec) : length x = length y -> length (segment s x y) = length y.
Proof. intros E. unfold segment. unfold vec in *. rewrite vadd_length; rewrite ?vscal_length; auto. Qed.
Lemma segment_step s : forall x y : vec, length x = length y -> segment s x y = vadd y (vscal s (vsub x y)).
Proof.
  unfold segment, vadd, vsub, vscal. induction x as [|a x IH]; intros [|b y] E; try discriminate; [reflexivity|]. cbn. f_equal; [ring|]. apply IH. injection E; auto.
Qed.

(* a convex function lies above its tangents *)
Lemma convex_above f y g x : convex_on (length y) f -> is_gradient f y g -> length x = length y -> f y + dot g (vsub x y) <= f x.
Proof.
  intros C [Lg H] Lx. apply Rnot_lt_le. intros N. set (u := vsub x y) in *. set (c := f y + dot g u - f x) in *. assert (Hc : 0 < c) by (unfold c; lra).
  assert (Lu : length u = length y) by (unfold u, vec in *; rewrite vsub_length; congruence).
  pose proof (norm2_nonneg u) as Nu. set (e := c / (2 * (norm2 u + 1))). assert (He : 0 < e) by (unfold e; apply Rdiv_lt_0_compat; lra).
  destruct (H e He) as (d & Hd & Hh). set (s := Rmin 1 (d / (2 * (norm2 u + 1)))).
  assert (Hs : 0 < s) by (unfold s; apply Rmin_pos; [lra|apply Rdiv_lt_0_compat; lra]). assert (Hs1 : s <= 1) by apply Rmin_l.
  assert (Ns : norm2 (vscal s u) = s * norm2 u) by (rewrite norm2_vscal, Rabs_right by lra; reflexivity).
  assert (Sd : s * norm2 u < d).
  { assert (s <= d / (2 * (norm2 u + 1))) by apply Rmin_r. apply Rle_lt_trans with (d / (2 * (norm2 u + 1)) * norm2 u); [apply Rmult_le_compat_r; assumption|].
    apply (Rmult_lt_reg_r (2 * (norm2 u + 1))); [lra|]. replace (d / (2 * (norm2 u + 1)) * norm2 u * (2 * (norm2 u + 1))) with (d * norm2 u) by (field; lra). nra. }
  specialize (Hh (vscal s u) ltac:(unfold vec in *; rewrite vscal_length; exact Lu) ltac:(rewrite Ns; exact Sd)).
  rewrite Ns in Hh. apply abs_le_inv in Hh. rewrite dot_vscal_r in Hh.
  pose proof (C s x y ltac:(lra) Lx eq_refl) as Cv. rewrite segment_step in Cv by exact Lx. fold u in Cv.
  assert (Ee : e * (s * norm2 u) <= s * c / 2).
  { unfold e. apply (Rmult_le_reg_r (2 * (norm2 u + 1))); [lra|]. replace (c / (2 * (norm2 u + 1)) * (s * norm2 u) * (2 * (norm2 u + 1))) with (s * c * norm2 u) by (field; lra). nra. }
  assert (s * (f y + dot g u - f x) <= s * c / 2) by lra. fold c in H0. nra.
Qed.
(* at a minimum there is no slope *)
Lemma gradient_at_min f x g : is_gradient f x g -> (forall y, length y = length x -> f x <= f y) -> g = vscal 0 x.
Proof.
  intros HG M. apply (gradient_unique f x); [exact HG|]. apply (gradient_same f x g); [exact HG|unfold vec in *; rewrite vscal_length; symmetry; exact (proj1 HG)|].
  destruct HG as [Lg H]. intros h Lh. rewrite dot_vscal0. symmetry.
  assert (Half : forall h, length h = length x -> 0 <= dot g h).
  { clear h Lh. intros h Lh. apply Rnot_lt_le. intros N. pose proof (norm2_nonneg h) as Nh. set (e := - dot g h / (2 * (norm2 h + 1))).
    assert (He : 0 < e) by (unfold e; apply Rdiv_lt_0_compat; lra). destruct (H e He) as (d & Hd & Hh). set (s := d / (2 * (norm2 h + 1))).
    assert (Hs : 0 < s) by (unfold s; apply Rdiv_lt_0_compat; lra). assert (Ns : norm2 (vscal s h) = s * norm2 h) by (rewrite norm2_vscal, Rabs_right by lra; reflexivity).
    assert (Sd : s * norm2 h < d).
    { apply (Rmult_lt_reg_r (2 * (norm2 h + 1))); [lra|]. unfold s. replace (d / (2 * (norm2 h + 1)) * norm2 h * (2 * (norm2 h + 1))) with (d * norm2 h) by (field; lra). nra. }
    specialize (Hh (vscal s h) ltac:(unfold vec in *; rewrite vscal_length; exact Lh) ltac:(rewrite Ns; exact Sd)). rewrite Ns in Hh. apply abs_le_inv in Hh. rewrite dot_vscal_r in Hh.
    pose proof (M (vadd x (vscal s h)) ltac:(unfold vec in *; rewrite vadd_length; [reflexivity|rewrite vscal_length; congruence])) as Q.
    assert (Ee : e * (s * norm2 h) <= - (s * dot g h) / 2).
    { unfold e. apply (Rmult_le_reg_r (2 * (norm2 h + 1))); [lra|]. replace (- dot g h / (2 * (norm2 h + 1)) * (s * norm2 h) * (2 * (norm2 h + 1))) with (s * (- dot g h) * norm2 h) by (field; lra). nra. }
    nra. }
  pose proof (Half h Lh) as A. pose proof (Half (vscal (-1) h) ltac:(unfold vec in *; rewrite vscal_length; exact Lh)) as B. rewrite dot_vscal_r in B. lra.
Qed.

(* the average of convex functions, and its gradient *)
Lemma adv_convex {P} (L : vec -> P -> R) d n A rows : adversary n A rows -> (forall r z, In r rows -> In z (r_zeta r) -> convex_on d (fun t => L t z)) ->
  convex_on d (fun t => adv_mean (fun _ z => L t z) A rows).
Proof.
  intros [LA WA] C s x y Hs Lx Ly. unfold adv_mean, rmean.
  rewrite !map2_length by exact LA. unfold Rdiv. rewrite <- !Rmult_assoc, <- Rmult_plus_distr_r. destruct rows as [|r0 rows0]; [destruct A; [cbn; lra|discriminate]|]. apply Rmult_le_compat_r.
  { left. apply Rinv_0_lt_compat. rewrite LA. apply INR_length_pos. discriminate. }
  rewrite <- !rsum_map2_scal, <- rsum_map2_plus. apply rsum_map2_le. intros q r Hq Hr. rewrite <- !rsum_map2_scal, <- rsum_map2_plus.
  rewrite Forall_forall in WA. destruct (WA q Hq) as (_ & Pq & _). rewrite Forall_forall in Pq. apply rsum_map2_le. intros w z Hw Hz.
  specialize (C r z Hr Hz s x y Hs Lx Ly). cbn beta in C. specialize (Pq w Hw). cbn beta in Pq. nra.
Qed.
Lemma adv_gradient {P} (L : vec -> P -> R) t (g : P -> vec) G A rows : length A = length rows ->
  (forall r z, In r rows -> In z (r_zeta r) -> is_gradient (fun t => L t z) t (g z)) -> averaged P (length t) A rows g G ->
  is_gradient (fun t => adv_mean (fun _ z => L t z) A rows) t G.
Proof.
  intros LA H [LG EG]. split; [exact LG|].
  assert (Row : forall q r, In r rows -> exists g', is_gradient (fun t => rsum (map2 (fun w z => w * L t z) q (r_zeta r))) t g' /\
    forall h, length h = length t -> dot g' h = rsum (map2 (fun w z => w * dot (g z) h) q (r_zeta r))).
  { intros q r Hr. assert (Hz : forall z, In z (r_zeta r) -> is_gradient (fun t => L t z) t (g z)) by (intros; apply (H r); assumption). clear -Hz.
    revert q. induction (r_zeta r) as [|z zs IH]; intros [|w q]; cbn [map2 rsum]; try (exists (vscal 0 t); split; [apply gradient_const|intros; apply dot_vscal0]).
    destruct (IH (fun y Hy => Hz y (or_intror Hy)) q) as (g' & G1 & G2). exists (vadd (vscal w (g z)) g'). split.
    - apply (gradient_plus (fun t => w * L t z) (fun t => rsum (map2 (fun w z => w * L t z) q zs))); [|exact G1]. apply gradient_scal. apply Hz. left; reflexivity.
    - intros h Lh. pose proof (proj1 (Hz z (or_introl eq_refl))) as A1. pose proof (proj1 G1) as A2. unfold vec in *.
      rewrite dot_vadd_l by (rewrite ?vscal_length; congruence). rewrite dot_vscal_l, G2 by exact Lh. reflexivity. }
  assert (All : exists g', is_gradient (fun t => rsum (map2 (fun q r => rsum (map2 (fun w z => w * L t z) q (r_zeta r))) A rows)) t g' /\
    forall h, length h = length t -> dot g' h = rsum (map2 (fun q r => rsum (map2 (fun w z => w * dot (g z) h) q (r_zeta r))) A rows)).
  { clear -Row. revert A Row. induction rows as [|r rows IH]; intros [|q A] Row; cbn [map2 rsum]; try (exists (vscal 0 t); split; [apply gradient_const|intros; apply dot_vscal0]).
    destruct (IH A (fun q r Hr => Row q r (or_intror Hr))) as (g1 & A1 & A2). destruct (Row q r (or_introl eq_refl)) as (g2 & B1 & B2). exists (vadd g2 g1). split.
    - apply (gradient_plus (fun t => rsum (map2 (fun w z => w * L t z) q (r_zeta r))) (fun t => rsum (map2 (fun q r => rsum (map2 (fun w z => w * L t z) q (r_zeta r))) A rows))); assumption.
    - intros h Lh. pose proof (proj1 A1) as C1. pose proof (proj1 B1) as C2. unfold vec in *. rewrite dot_vadd_l by congruence. rewrite A2, B2 by exact Lh. reflexivity. }
  destruct All as (g' & G1 & G2).
  assert (Fin : is_gradient (fun t => adv_mean (fun _ z => L t z) A rows) t G); [|exact (proj2 Fin)].
  apply (gradient_same _ t (vscal (/ INR (length rows)) g')).
  - apply (gradient_ext (fun t => / INR (length rows) * rsum (map2 (fun q r => rsum (map2 (fun w z => w * L t z) q (r_zeta r))) A rows))); [|apply gradient_scal; exact G1].
    intros y _. unfold adv_mean, rmean. rewrite map2_length by exact LA. rewrite LA. unfold Rdiv. ring.
  - pose proof (proj1 G1). unfold vec in *. rewrite vscal_length. congruence.
  - intros h Lh. rewrite EG, dot_vscal_l, G2 by exact Lh. unfold adv_mean, rmean. rewrite map2_length by exact LA. rewrite LA. unfold Rdiv. ring.
Qed.
