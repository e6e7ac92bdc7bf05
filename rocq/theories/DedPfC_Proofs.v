(* The portfolio programme with side constraints: strong duality, by Kantorovich duality and multipliers for the constraints. *)
From Coq Require Import Reals List Lra Lia Arith.
From Verif Require Import PyBase RList XReal Costs_Model Costs_Spec Costs_Proofs Transport_Spec Transport_Proofs Kantorovich_Proofs Farkas_Proofs DedProg_Model DedProg_Spec DedLog_Proofs DedPf_Proofs.
Import ListNotations.
Local Open Scope R_scope.

(* ---------- the dual norm, any signs ---------- *)
Definition sgn (a : R) : R := if Rle_dec 0 a then 1 else -1.
Lemma sgn_abs a : sgn a * a = Rabs a /\ Rabs (sgn a) = 1.
Proof. unfold sgn. destruct (Rle_dec 0 a); [rewrite (Rabs_pos_eq a), Rabs_R1 by lra; lra|]. rewrite (Rabs_left a), abs_m1 by lra. lra. Qed.
Lemma pnorm_abs p x y : map Rabs x = map Rabs y -> pnorm p x = pnorm p y.
Proof.
  intros H. destruct p as [q|]; cbn; [|rewrite H; reflexivity]. do 2 f_equal. rewrite <- (map_map Rabs (fun a => ppow a q) x), <- (map_map Rabs (fun a => ppow a q) y), H. reflexivity.
Qed.
Lemma dual_attained_any p u : valid_exp p -> exists v, length v = length u /\ pnorm p v <= 1 /\ dot u v = pnorm (pf_q p) u.
Proof.
  intros Vp. destruct (dual_attained p (map Rabs u) Vp) as (w & Lw & Nw & Dw).
  { apply Forall_forall. intros a Ha. apply in_map_iff in Ha. destruct Ha as (b & <- & _). apply Rabs_pos. }
  rewrite map_length in Lw. exists (map2 (fun a b => sgn a * b) u w). split; [rewrite map2_length; [reflexivity|symmetry; exact Lw]|]. split.
  - rewrite (pnorm_abs p _ w); [exact Nw|]. clear -Lw. revert w Lw. induction u as [|a u IH]; intros [|b w] L; try discriminate; cbn; [reflexivity|]. f_equal; [rewrite Rabs_mult, (proj2 (sgn_abs a)); ring|apply IH; injection L; auto].
  - rewrite (pnorm_abs _ u (map Rabs u)) by (rewrite map_map; apply map_ext; intros; symmetry; apply Rabs_Rabsolu). rewrite <- Dw.
    clear -Lw. revert w Lw. unfold dot. induction u as [|a u IH]; intros [|b w] L; try discriminate; cbn; [reflexivity|]. rewrite (IH w) by (injection L; auto).
    rewrite <- (proj1 (sgn_abs a)). ring.
Qed.
Lemma dual_norm_le p u lam : valid_exp p -> 0 <= lam -> (forall v, length v = length u -> dot u v <= lam * pnorm p v) -> pnorm (pf_q p) u <= lam.
Proof. intros Vp Hl H. destruct (dual_attained_any p u Vp) as (v & Lv & Nv & Dv). specialize (H v Lv). rewrite Dv in H. pose proof (pnorm_nonneg p v). nra. Qed.

(* ---------- vectors as functions ---------- *)
Definition tovec (m : nat) (q : nat -> R) : vec := map q (seq 0 m).
Lemma tovec_length m q : length (tovec m q) = m.
Proof. unfold tovec. rewrite map_length, seq_length. reflexivity. Qed.
Lemma tovec_add m q r : tovec m (fun j => q j + r j) = vadd (tovec m q) (tovec m r).
Proof. unfold tovec, vadd. generalize (seq 0 m). induction l as [|j l IH]; cbn; [reflexivity|]. rewrite IH. reflexivity. Qed.
Lemma tovec_scal m a q : tovec m (fun j => a * q j) = vscal a (tovec m q).
Proof. unfold tovec, vscal. rewrite map_map. reflexivity. Qed.
Lemma tovec_nth v : tovec (length v) (fun j => nth j v 0) = v.
Proof.
  unfold tovec. apply nth_ext with (d := 0) (d' := 0); [rewrite map_length, seq_length; reflexivity|]. intros j Hj. rewrite map_length, seq_length in Hj.
  rewrite (nth_indep _ 0 (nth 0%nat v 0)) by (rewrite map_length, seq_length; exact Hj). rewrite (map_nth (fun j => nth j v 0) (seq 0 (length v)) 0%nat j), seq_nth by exact Hj. reflexivity.
Qed.
Lemma vscal_0_pnorm p v : pnorm p (vscal 0 v) = 0.
Proof. apply pnorm_all0. apply Forall_forall. intros a Ha. apply in_map_iff in Ha. destruct Ha as (b & <- & _). ring. Qed.

(* ---------- one sample, one piece ---------- *)
Section Row.
Variable m : nat.
Variables (C : list vec) (dv : vec).
Hypothesis HC : Forall (fun r => length r = m) C.
Hypothesis Hdv : length dv = length C.
Variable p : nexp.
Hypothesis Vp : valid_exp p.
Variables (theta x : vec).
Hypothesis Lt : length theta = m.
Hypothesis Px : in_polyhedron m C dv x x.
Variables (a b lam si : R).
Hypothesis Hl : 0 <= lam.
Hypothesis bound : forall y, in_polyhedron m C dv x y -> b + a * dot theta y <= lam * pnorm p (vsub y x) + si.

Definition W := ((nat -> R) * R)%type.
Definition wadd (u v : W) : W := ((fun j => fst u j + fst v j), snd u + snd v).
Definition wscal (t : R) (u : W) : W := ((fun j => t * fst u j), t * snd u).
Definition side (r : vec * R) (u : W) : R := snd u * (dot (fst r) x - snd r) + dot (fst r) (tovec m (fst u)).
Definition positive (u : W) : R := - snd u.
Definition gain (u : W) : R := snd u * (b + a * dot theta x - si) + a * dot theta (tovec m (fst u)).
Definition price (u : W) : R := lam * pnorm p (tovec m (fst u)).

Lemma side_linear r : length (fst r) = m -> linear wadd wscal (side r).
Proof.
  intros L. split; intros; unfold side, wadd, wscal; cbn [fst snd].
  - rewrite tovec_add, dot_vadd_r by (rewrite ?tovec_length; auto). ring.
  - rewrite tovec_scal, dot_vscal_r. ring.
Qed.
Lemma positive_linear : linear wadd wscal positive.
Proof. split; intros; unfold positive, wadd, wscal; cbn; ring. Qed.
Lemma gain_linear : linear wadd wscal gain.
Proof.
  split; intros; unfold gain, wadd, wscal; cbn [fst snd].
  - rewrite tovec_add, dot_vadd_r by (rewrite ?tovec_length; auto). ring.
  - rewrite tovec_scal, dot_vscal_r. ring.
Qed.
Lemma price_sublinear : sublinear wadd wscal price.
Proof.
  split; intros; unfold price, wadd, wscal; cbn [fst snd].
  - rewrite tovec_add. pose proof (pnorm_triangle p (tovec m (fst x0)) (tovec m (fst y)) Vp ltac:(rewrite !tovec_length; reflexivity)). nra.
  - rewrite tovec_scal, pnorm_vscal, Rabs_pos_eq by assumption. ring.
Qed.
Lemma polyhedron_move t q : 0 <= t -> length q = m -> Forall2 (fun c di => dot c x - di + t * dot c q <= 0) C dv -> in_polyhedron m C dv x (vadd x (vscal t q)).
Proof.
  intros Ht Lq F. destruct Px as [Lx _]. split; [rewrite vadd_length; rewrite ?vscal_length; congruence|].
  clear Px bound Hdv. revert HC. induction F as [|c di C' dv' H F IH]; intros HC'; constructor; inversion HC'; subst; [|apply IH; assumption].
  rewrite dot_vadd_r, dot_vscal_r by (rewrite ?vscal_length; congruence). lra.
Qed.
Lemma rows_F2 (P : vec -> R -> Prop) : (forall r, In r (combine C dv) -> P (fst r) (snd r)) -> Forall2 P C dv.
Proof.
  clear HC Px bound. revert dv Hdv. induction C as [|c C' IH]; intros [|d dv'] L H; try discriminate; constructor.
  - apply (H (c, d)). left. reflexivity.
  - apply IH; [injection L; auto|]. intros r Hr. apply H. right. exact Hr.
Qed.
Lemma implication u : (forall f, In f (positive :: map side (combine C dv)) -> f u <= 0) -> gain u <= price u.
Proof.
  intros H. destruct u as [q h]. assert (Hh : 0 <= h) by (specialize (H positive (or_introl eq_refl)); unfold positive in H; cbn in H; lra).
  assert (S : forall r, In r (combine C dv) -> h * (dot (fst r) x - snd r) + dot (fst r) (tovec m q) <= 0).
  { intros r Hr. specialize (H (side r) (or_intror (in_map side _ _ Hr))). exact H. }
  unfold gain, price. cbn [fst snd]. set (v := tovec m q) in *. assert (Lv : length v = m) by apply tovec_length. destruct Px as [Lx Fx].
  assert (V : forall t, length (vscal t v) = length x) by (intros; rewrite vscal_length; congruence).
  destruct (Rle_lt_or_eq_dec 0 h Hh) as [Hp|Hz].
  - assert (Y : in_polyhedron m C dv x (vadd x (vscal (/ h) v))).
    { apply polyhedron_move; [left; apply Rinv_0_lt_compat; exact Hp|exact Lv|]. apply rows_F2. intros r Hr. specialize (S r Hr).
      apply (Rmult_le_reg_l h); [exact Hp|]. replace (h * (dot (fst r) x - snd r + / h * dot (fst r) v)) with (h * (dot (fst r) x - snd r) + dot (fst r) v) by (field; lra). lra. }
    specialize (bound _ Y). rewrite vsub_vadd_l in bound by (symmetry; apply V). rewrite pnorm_vscal in bound by exact Vp. rewrite Rabs_pos_eq in bound by (left; apply Rinv_0_lt_compat; exact Hp).
    rewrite dot_vadd_r, dot_vscal_r in bound by (rewrite ?V; congruence).
    apply (Rmult_le_compat_l h) in bound; [|lra].
    replace (h * (b + a * (dot theta x + / h * dot theta v))) with (h * (b + a * dot theta x) + a * dot theta v) in bound by (field; lra).
    replace (h * (lam * (/ h * pnorm p v) + si)) with (lam * pnorm p v + h * si) in bound by (field; lra). lra.
  - subst h. assert (B : forall t, 0 <= t -> b + a * dot theta x + t * (a * dot theta v) <= t * (lam * pnorm p v) + si).
    { intros t Ht. assert (Y : in_polyhedron m C dv x (vadd x (vscal t v))).
      { apply polyhedron_move; [exact Ht|exact Lv|]. apply rows_F2. intros r Hr. specialize (S r Hr).
        assert (dot (fst r) x - snd r <= 0).
        { clear -Fx Hr. revert Hr. induction Fx as [|c di C' dv' H F IH]; [contradiction|]. intros [<-|Hr]; [cbn [fst snd]; lra|auto]. }
        nra. }
      specialize (bound _ Y). rewrite vsub_vadd_l in bound by (symmetry; apply V). rewrite pnorm_vscal, Rabs_pos_eq in bound by assumption.
      rewrite dot_vadd_r, dot_vscal_r in bound by (rewrite ?V; congruence). lra. }
    rewrite Rmult_0_l, Rplus_0_l. apply Rnot_lt_le. intros G. set (e := a * dot theta v - lam * pnorm p v). assert (E0 : 0 < e) by (unfold e; lra).
    set (K := si - b - a * dot theta x). pose proof (B 0 ltac:(lra)) as B0. assert (K0 : 0 <= K) by (unfold K; lra).
    specialize (B ((K + 1) / e) ltac:(apply Rle_mult_inv_pos; lra)).
    assert (T : (K + 1) / e * e = K + 1) by (field; lra). set (t := (K + 1) / e) in *.
    assert (T' : t * (a * dot theta v) - t * (lam * pnorm p v) = K + 1) by (rewrite <- T; unfold e; ring). assert (KE : K = si - b - a * dot theta x) by reflexivity. lra.
Qed.

Lemma side_sum (g : vec) (v : vec) : length g = length C -> length v = m ->
  forall h, fold_right (fun iy acc => snd iy * (h * (dot (fst (fst iy)) x - snd (fst iy)) + dot (fst (fst iy)) v) + acc) 0 (combine (combine C dv) g)
  = - (h * dot g (vsub dv (matvec C x))) + dot (tmatvec m C g) v.
Proof.
  intros Lg Lv h. rewrite dot_tmatvec by assumption. clear Px bound. revert dv g Hdv Lg. induction HC as [|c C' Hc F IH]; intros [|d dv'] [|y g] L1 L2; try discriminate; [cbn; unfold dot; cbn; ring|].
  cbn [combine fold_right fst snd]. rewrite (IH F dv' g) by (cbn in *; congruence).
  change (dot (y :: g) (vsub (d :: dv') (matvec (c :: C') x))) with (y * (d - dot c x) + dot g (vsub dv' (matvec C' x))).
  change (dot (y :: g) (matvec (c :: C') v)) with (y * dot c v + dot g (matvec C' v)). ring.
Qed.

Lemma row_exists : exists g, length g = length dv /\ b + a * dot theta x + dot g (vsub dv (matvec C x)) <= si /\
  pnorm (pf_q p) (vsub (tmatvec (length theta) C g) (vscal a theta)) <= lam /\ Forall (fun y => 0 <= y) g.
Proof.
  destruct (multipliers wadd wscal (positive :: map side (combine C dv)) gain price) as (c & Cc & K).
  - intros f [<-|Hf]; [exact positive_linear|]. apply in_map_iff in Hf. destruct Hf as ([c d] & <- & Hr). apply side_linear. apply in_combine_l in Hr. rewrite Forall_forall in HC. auto.
  - exact gain_linear.
  - exact price_sublinear.
  - exact implication.
  - (* the sign constraint on h is one more row, with the zero vector and the bound of x shifted: split it off *)
    assert (Q : exists y0 c', 0 <= y0 /\ cone (fun f => In f (map side (combine C dv))) c' /\ forall u, c u = y0 * positive u + c' u).
    { clear K. induction Cc as [q K|f y q q' Pf Hy Cc (y0 & c' & H0 & Hc & E) E']; [exists 0, (fun _ => 0); split; [lra|split; [apply cone_0; reflexivity|intros; rewrite K; ring]]|].
      destruct Pf as [<-|Pf].
      - exists (y + y0), c'. split; [lra|]. split; [exact Hc|]. intros u. rewrite E', E. ring.
      - exists y0, (fun u => y * f u + c' u). split; [exact H0|]. split; [eapply cone_s; [exact Pf|exact Hy|exact Hc|reflexivity]|]. intros u. rewrite E', E. ring. }
    destruct Q as (y0 & c' & H0 & Hc & E). destruct (cone_coefficients side (combine C dv) c' Hc) as (g & Lg & Fg & Eg).
    assert (LC : length (combine C dv) = length C) by (rewrite combine_length; lia). rewrite LC in Lg.
    assert (K' : forall q h, h * (b + a * dot theta x - si) + a * dot theta (tovec m q) <= lam * pnorm p (tovec m q) - y0 * h - h * dot g (vsub dv (matvec C x)) + dot (tmatvec m C g) (tovec m q)).
    { intros q h. specialize (K (q, h)). rewrite E, Eg in K. unfold gain, price, side, positive in K. cbn [fst snd] in K. rewrite (side_sum g (tovec m q) Lg (tovec_length m q) h) in K. lra. }
    exists g. split; [congruence|]. split; [|split; [|exact Fg]].
    + specialize (K' (fun _ => 0) 1). assert (Z : tovec m (fun _ => 0) = vscal 0 (tovec m (fun _ => 0))) by (rewrite <- tovec_scal; f_equal; apply FunctionalExtensionality.functional_extensionality; intros; ring).
      rewrite Z in K'. rewrite vscal_0_pnorm, !dot_vscal_r in K'. lra.
    + rewrite Lt. apply dual_norm_le; [exact Vp|exact Hl|]. assert (Lw : length (tmatvec m C g) = m) by (apply tmatvec_length; exact HC).
      assert (Lu : length (vsub (tmatvec m C g) (vscal a theta)) = m) by (rewrite vsub_length; rewrite ?vscal_length; congruence). rewrite Lu.
      intros v Lv. specialize (K' (fun j => nth j (vscal (-1) v) 0) 0). assert (Lv' : length (vscal (-1) v) = m) by (rewrite vscal_length; exact Lv).
      assert (TV : tovec m (fun j => nth j (vscal (-1) v) 0) = vscal (-1) v) by (rewrite <- Lv' at 1; apply tovec_nth). rewrite TV in K'. rewrite pnorm_vscal, abs_m1, !dot_vscal_r in K' by exact Vp.
      rewrite dot_vsub_l, dot_vscal_l by (rewrite ?vscal_length; congruence). lra.
Qed.
End Row.

(* ---------- the programme ---------- *)
Lemma pf_exact m C dv p eta alpha rho samples theta tau c : valid_exp p -> 0 <= eta -> 0 < alpha -> 0 <= rho -> samples <> [] ->
  Forall (fun r => length r = m) C -> length dv = length C -> Forall (fun x => in_polyhedron m C dv x x) samples ->
  length theta = m -> rsum theta = 1 -> Forall (fun t => 0 <= t) theta ->
  (pf_worst_le (pnorm p) m C dv eta alpha rho samples theta tau c <->
   exists lam s gamma, pf_feasible m C dv p eta alpha samples theta tau lam s gamma /\ pf_objective rho lam s <= c).
Proof.
  intros Vp He Ha Hr Hn HC Hdv Hs Lt St Ft. split.
  - intros Wc. assert (Hh : 0 <= eta / alpha) by (apply Rmult_le_pos; [exact He|left; apply Rinv_0_lt_compat; exact Ha]).
    rewrite Forall_forall in Hs.
    destruct (strong_duality (fun x y => pnorm p (vsub y x)) (in_polyhedron m C dv) samples Hn) with (rho := rho) (f := mean_risk eta alpha theta tau) (c := c) as (lam & s & Hl & F & B).
    + intros x Hx. split; [apply Hs; exact Hx|apply pnorm_all0, vsub_self].
    + right. split; [exact Hr|]. exists ((1 + eta / alpha) * pnorm (pf_q p) theta). split; [apply Rmult_le_pos; [lra|apply pnorm_nonneg]|].
      intros x y Hx [Ly _]. destruct (Hs x Hx) as [Lx _].
      pose proof (holder p (vsub y x) theta Vp) as H1. pose proof (holder p (vscal (-1) (vsub y x)) theta Vp) as H2. rewrite pnorm_vscal, abs_m1, dot_vscal_l in H2 by exact Vp.
      rewrite dot_vsub_l in H1, H2 by congruence. rewrite (dot_comm y), (dot_comm x) in H1, H2. set (D := pnorm p (vsub y x)) in *. set (T := pnorm (pf_q p) theta) in *.
      unfold mean_risk. set (ry := dot theta y) in *. set (rx := dot theta x) in *. assert (T0 : 0 <= T * D) by (apply Rmult_le_pos; apply pnorm_nonneg).
      assert (M : Rmax (- ry - tau) 0 - Rmax (- rx - tau) 0 <= T * D) by (unfold Rmax; repeat destruct (Rle_dec _ _); lra).
      assert (E : eta * (tau + Rmax (- ry - tau) 0 / alpha) - eta * (tau + Rmax (- rx - tau) 0 / alpha) = eta / alpha * (Rmax (- ry - tau) 0 - Rmax (- rx - tau) 0)) by (field; lra).
      assert (eta / alpha * (Rmax (- ry - tau) 0 - Rmax (- rx - tau) 0) <= eta / alpha * (T * D)) by (apply Rmult_le_compat_l; assumption). lra.
    + exact Wc.
    + assert (G : exists gamma, length gamma = length samples /\ Forall (fun xsg => pf_row C dv p eta alpha theta tau lam (fst xsg) (fst (snd xsg)) false (fst (snd (snd xsg))) /\
                     pf_row C dv p eta alpha theta tau lam (fst xsg) (fst (snd xsg)) true (snd (snd (snd xsg)))) (List.combine samples (List.combine s gamma))).
      { clear B Wc Hn. induction F as [|x si l s' Hx F IH]; [exists []; split; [reflexivity|constructor]|].
        destruct IH as (gamma & Lg & Fg); [intros; apply Hs; right; assumption|].
        assert (Px : in_polyhedron m C dv x x) by (apply Hs; left; reflexivity).
        assert (Row : forall k, exists g, pf_row C dv p eta alpha theta tau lam x si k g).
        { intros k. destruct (row_exists m C dv HC Hdv p Vp theta x Lt Px (pf_a eta alpha k) (pf_b eta alpha k * tau) lam si Hl) as (g & A1 & A2 & A3 & A4).
          - intros y Hy. specialize (Hx y Hy). rewrite pieces_max in Hx by assumption. destruct k; [pose proof (Rmax_r (piece eta alpha tau false (dot theta y)) (piece eta alpha tau true (dot theta y)))|pose proof (Rmax_l (piece eta alpha tau false (dot theta y)) (piece eta alpha tau true (dot theta y)))]; unfold piece at 1 in H; lra.
          - exists g. repeat split; assumption. }
        destruct (Row false) as (g0 & R0). destruct (Row true) as (g1 & R1). exists ((g0, g1) :: gamma). split; [cbn; congruence|]. cbn. constructor; [cbn; split; assumption|exact Fg]. }
      destruct G as (gamma & Lg & Fg). exists lam, s, gamma. split.
      * repeat split; auto. symmetry. eapply F2_length. exact F.
      * unfold pf_objective. unfold rmean, Rdiv in B. lra.
  - intros (lam & s & gamma & F & L). apply (pf_upper m C dv p eta alpha rho samples Vp He Ha) with (lam := lam) (s := s) (gamma := gamma); auto.
    eapply Forall_impl; [|exact Hs]. intros x [H _]. exact H.
Qed.
