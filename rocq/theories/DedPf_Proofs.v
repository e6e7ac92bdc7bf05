(* The programme of the dedicated portfolio bounds the worst case, exactly so without side constraints. *)
From Coq Require Import Reals List Lra Lia Permutation.
From Verif Require Import PyBase RList XReal Costs_Model Costs_Spec Costs_Proofs Transport_Spec Transport_Proofs DedProg_Model DedProg_Spec DedLin_Proofs DedLog_Proofs.
Import ListNotations.
Local Open Scope R_scope.

(* ---------- dual norms ---------- *)
Lemma dot_abs_le x : forall y, dot x y <= rsum (map2 (fun a b => Rabs a * Rabs b) x y).
Proof.
  unfold dot. induction x as [|a x IH]; intros [|b y]; simpl; try lra. specialize (IH y).
  rewrite <- Rabs_mult. pose proof (Rle_abs (a * b)). lra.
Qed.

Lemma dot_max_l B x : 0 <= B -> (forall a, In a x -> Rabs a <= B) -> forall y, rsum (map2 (fun a b => Rabs a * Rabs b) x y) <= B * rsum (map Rabs y).
Proof.
  intros HB. induction x as [|a x IH]; intros H y.
  - simpl. apply Rmult_le_pos; [exact HB|]. apply rsum_map_nonneg. intros; apply Rabs_pos.
  - destruct y as [|b y]; simpl; [lra|]. specialize (IH (fun c Hc => H c (or_intror Hc)) y).
    pose proof (H a (or_introl eq_refl)). pose proof (Rabs_pos b). nra.
Qed.

Lemma map2_swap (x : vec) : forall y : vec, map2 (fun a b => Rabs a * Rabs b) x y = map2 (fun a b => Rabs a * Rabs b) y x.
Proof. induction x as [|a x IH]; intros [|b y]; simpl; auto. rewrite IH. f_equal. ring. Qed.

Lemma holder_sum p q : 1 < p -> / p + / q = 1 -> forall x y : vec,
  rsum (map2 (fun a b => Rabs a * Rabs b) x y) <= rsum (map (fun a => ppow (Rabs a) p) x) / p + rsum (map (fun a => ppow (Rabs a) q) y) / q.
Proof.
  intros Hp E. assert (Hq : 0 < q).
  { assert (0 < / p < 1) by (split; [apply Rinv_0_lt_compat; lra|rewrite <- Rinv_1; apply Rinv_lt_contravar; lra]).
    assert (0 < / q) by lra. rewrite <- (Rinv_inv q). apply Rinv_0_lt_compat. assumption. }
  assert (Ip : 0 < / p) by (apply Rinv_0_lt_compat; lra). assert (Iq : 0 < / q) by (apply Rinv_0_lt_compat; lra).
  assert (PS : forall r (l : vec), 0 < / r -> 0 <= rsum (map (fun a => ppow (Rabs a) r) l) / r)
    by (intros r l Hr; apply Rmult_le_pos; [apply powsum_nonneg|lra]).
  induction x as [|a x IH]; intros y.
  - simpl. pose proof (PS q y Iq). unfold Rdiv in *. lra.
  - destruct y as [|b y]; [pose proof (PS p (a :: x) Ip); simpl in *; unfold Rdiv in *; lra|].
    cbn [map2 map rsum]. specialize (IH y). pose proof (young (Rabs a) (Rabs b) p q Hp E (Rabs_pos a) (Rabs_pos b)). unfold Rdiv in *. lra.
Qed.

Lemma conj_exp p : 1 < p -> / p + / (1 / (1 - 1 / p)) = 1 /\ 1 < 1 / (1 - 1 / p).
Proof.
  intros Hp. assert (0 < / p < 1) by (split; [apply Rinv_0_lt_compat; lra|rewrite <- Rinv_1; apply Rinv_lt_contravar; lra]).
  unfold Rdiv. rewrite !Rmult_1_l, Rinv_inv. split; [ring|]. rewrite <- Rinv_1 at 1. apply Rinv_lt_contravar; lra.
Qed.

Lemma pf_q_cases p : valid_exp p ->
  (p = PFin 1 /\ pf_q p = PInfty) \/ (p = PInfty /\ pf_q p = PFin 1) \/ (exists r s, p = PFin r /\ pf_q p = PFin s /\ 1 < r /\ 1 < s /\ / r + / s = 1).
Proof.
  destruct p as [r|]; simpl; intros V.
  - destruct (Reqb r 1) eqn:E; [apply Reqb_true in E; subst; auto|apply Reqb_false in E]. right. right. exists r, (1 / (1 - 1 / r)).
    destruct (conj_exp r ltac:(lra)) as [H1 H2]. repeat split; auto. lra.
  - right. left. split; [reflexivity|]. f_equal. field.
Qed.

Lemma pf_q_valid p : valid_exp p -> valid_exp (pf_q p).
Proof. intros V. destruct (pf_q_cases p V) as [[_ ->]|[[_ ->]|(r & s & _ & -> & _ & H & _)]]; simpl; auto; lra. Qed.

Lemma holder p x y : valid_exp p -> dot x y <= pnorm p x * pnorm (pf_q p) y.
Proof.
  intros V. pose proof (dot_abs_le x y) as D. destruct (pf_q_cases p V) as [[-> ->]|[[-> ->]|(r & s & -> & -> & Hr & Hs & E)]].
  - rewrite pnorm_1. simpl pnorm. rewrite map2_swap in D. rewrite Rmult_comm.
    apply Rle_trans with (1 := D). apply dot_max_l; [apply rmax0_nonneg|]. intros a Ha. apply rmax0_ge. apply in_map. exact Ha.
  - rewrite pnorm_1. simpl pnorm. apply Rle_trans with (1 := D). apply dot_max_l; [apply rmax0_nonneg|]. intros a Ha. apply rmax0_ge. apply in_map. exact Ha.
  - pose proof (pnorm_nonneg (PFin r) x) as N0. pose proof (pnorm_nonneg (PFin s) y) as M0.
    assert (ZZ : forall u v : vec, Forall (fun a => a = 0) u -> rsum (map2 (fun a b => Rabs a * Rabs b) u v) = 0).
    { intros u v F. revert v. induction F as [|a u Ha F IH]; intros [|b v]; simpl; auto. rewrite IH, Ha, Rabs_R0. ring. }
    destruct (Req_dec (pnorm (PFin r) x) 0) as [Zx|Zx]; [apply pnorm_eq0 in Zx; rewrite (ZZ x y Zx) in D; nra|].
    destruct (Req_dec (pnorm (PFin s) y) 0) as [Zy|Zy]; [apply pnorm_eq0 in Zy; rewrite map2_swap, (ZZ y x Zy) in D; nra|].
    set (N := pnorm (PFin r) x) in *. set (M := pnorm (PFin s) y) in *.
    pose proof (dot_abs_le (vscal (/ N) x) (vscal (/ M) y)) as D'.
    pose proof (holder_sum r s Hr E (vscal (/ N) x) (vscal (/ M) y)) as H.
    rewrite <- !pnorm_finite_pow in H by lra. rewrite !pnorm_vscal in H by (simpl; lra). fold N M in H.
    rewrite !Rabs_pos_eq in H by (left; apply Rinv_0_lt_compat; lra). rewrite !Rinv_l, !ppow_one in H by assumption.
    rewrite dot_vscal_l, dot_vscal_r in D'.
    assert (F : / N * (/ M * dot x y) <= 1) by (unfold Rdiv in H; lra).
    replace (dot x y) with (N * M * (/ N * (/ M * dot x y))) by (field; split; assumption).
    rewrite <- (Rmult_1_r (N * M)) at 2. apply Rmult_le_compat_l; nra.
Qed.

(* for non-negative vectors the bound is attained *)
Fixpoint onehot_max (x : vec) : vec :=
  match x with
  | [] => []
  | a :: r => if Rle_dec (rmax0 r) a then 1 :: map (fun _ => 0) r else 0 :: onehot_max r
  end.

Lemma onehot_length x : length (onehot_max x) = length x.
Proof. induction x as [|a x IH]; simpl; [reflexivity|]. destruct (Rle_dec (rmax0 x) a); simpl; [rewrite map_length; reflexivity|rewrite IH; reflexivity]. Qed.

Lemma dot_zeros x (l : vec) : dot x (map (fun _ => 0) l) = 0.
Proof. rewrite dot_comm. apply (zeros_dot l x). Qed.

Lemma onehot_spec x : Forall (fun a => 0 <= a) x -> dot x (onehot_max x) = rmax0 x /\ rsum (map Rabs (onehot_max x)) <= 1.
Proof.
  induction 1 as [|a x Ha F IH]; simpl; [unfold dot; simpl; lra|]. destruct (Rle_dec (rmax0 x) a) as [H|H].
  - rewrite Rmax_left by exact H. split.
    + change (a * 1 + dot x (map (fun _ => 0) x) = a). rewrite dot_zeros. ring.
    + simpl. rewrite map_map, Rabs_R1, (map_ext _ (fun _ => 0)) by (intros; apply Rabs_R0). rewrite rsum_map_const. lra.
  - rewrite Rmax_right by lra. destruct IH as [I1 I2]. split; [change (a * 0 + dot x (onehot_max x) = rmax0 x); rewrite I1; ring|simpl; rewrite Rabs_R0; lra].
Qed.

Lemma map_abs_nonneg x : Forall (fun a => 0 <= a) x -> map Rabs x = x.
Proof. induction 1; simpl; [reflexivity|]. rewrite IHForall, Rabs_pos_eq by assumption. reflexivity. Qed.

Lemma dual_attained p x : valid_exp p -> Forall (fun a => 0 <= a) x ->
  exists v, length v = length x /\ pnorm p v <= 1 /\ dot x v = pnorm (pf_q p) x.
Proof.
  intros V F. destruct (pf_q_cases p V) as [[-> ->]|[[-> ->]|(r & s & -> & -> & Hr & Hs & E)]].
  - exists (onehot_max x). destruct (onehot_spec x F) as [H1 H2]. split; [apply onehot_length|]. rewrite pnorm_1. split; [exact H2|].
    simpl. rewrite map_abs_nonneg by exact F. exact H1.
  - exists (map (fun _ => 1) x). split; [apply map_length|]. split.
    + simpl. apply rmax0_le; [lra|]. intros y Hy. rewrite map_map in Hy. apply in_map_iff in Hy as (? & <- & _). rewrite Rabs_R1. lra.
    + rewrite pnorm_1, map_abs_nonneg by exact F. clear. unfold dot. induction x as [|a x IH]; simpl; [reflexivity|]. rewrite IH. ring.
  - set (M := pnorm (PFin s) x). pose proof (pnorm_nonneg (PFin s) x : 0 <= M) as M0.
    destruct (Req_dec M 0) as [Z|Z].
    { exists (map (fun _ => 0) x). split; [apply map_length|]. split.
      - rewrite pnorm_all0; [lra|]. apply Forall_map. apply Forall_forall. auto.
      - rewrite dot_zeros. symmetry. exact Z. }
    assert (Mp : 0 < M) by lra.
    assert (PM : ppow M s = rsum (map (fun a => ppow (Rabs a) s) x)) by (apply pnorm_finite_pow; lra).
    assert (Rs : (s - 1) * r = s). { assert (r * s * (/ r + / s) = r * s) by (rewrite E; ring). replace (r * s * (/ r + / s)) with (s + r) in H by (field; lra). lra. }
    exists (map (fun a => ppow (a / M) (s - 1)) x). split; [apply map_length|]. split.
    + assert (P1 : rsum (map (fun a => ppow (Rabs a) r) (map (fun a => ppow (a / M) (s - 1)) x)) = 1).
      { rewrite map_map. rewrite (map_ext_in _ (fun a => / ppow M s * ppow (Rabs a) s)).
        - rewrite rsum_map_scal, <- PM. apply Rinv_l. pose proof (ppow_gt0 M s Mp). lra.
        - intros a Ha. rewrite Forall_forall in F. specialize (F a Ha). rewrite (Rabs_pos_eq (ppow _ _)) by apply ppow_nonneg.
          rewrite ppow_ppow, Rs. unfold Rdiv. rewrite ppow_mult by (try exact F; left; apply Rinv_0_lt_compat; exact Mp).
          rewrite ppow_inv by exact Mp. rewrite Rabs_pos_eq by exact F. ring. }
      cbn [pnorm]. rewrite P1, ppow_one. lra.
    + assert (D : dot x (map (fun a => ppow (a / M) (s - 1)) x) = M * (/ ppow M s * rsum (map (fun a => ppow (Rabs a) s) x))).
      { clear PM. rewrite <- rsum_map_scal, <- rsum_map_scal. unfold dot. rewrite map2_map_r. clearbody M. clear -F Mp Hs.
        induction F as [|a x Ha F IH]; simpl; [reflexivity|]. rewrite IH. f_equal.
        assert (Hinv : 0 <= / M) by (left; apply Rinv_0_lt_compat; exact Mp).
        replace a with (M * (a / M)) at 1 by (field; lra). rewrite Rmult_assoc. f_equal.
        assert (A0 : 0 <= a / M) by (apply Rmult_le_pos; assumption).
        transitivity (ppow (a / M) s).
        - destruct (Req_dec (a / M) 0) as [->|Z]; [rewrite !ppow_0; ring|]. rewrite !ppow_pos by lra.
          rewrite <- (Rpower_1 (a / M)) at 1 by lra. rewrite <- Rpower_plus. f_equal. ring.
        - unfold Rdiv. rewrite ppow_mult by assumption. rewrite ppow_inv by exact Mp. rewrite Rabs_pos_eq by exact Ha. ring. }
      rewrite D, <- PM, Rinv_l; [unfold M; ring|]. pose proof (ppow_gt0 M s Mp). lra.
Qed.

(* ---------- the two affine pieces ---------- *)
Definition piece (eta alpha tau : R) (k : bool) (r : R) : R := pf_b eta alpha k * tau + pf_a eta alpha k * r.

Lemma pieces_max eta alpha theta tau x : 0 <= eta -> 0 < alpha ->
  mean_risk eta alpha theta tau x = Rmax (piece eta alpha tau false (dot theta x)) (piece eta alpha tau true (dot theta x)).
Proof.
  intros He Ha. unfold mean_risk, piece, pf_a, pf_b. assert (0 <= eta / alpha) by (apply Rmult_le_pos; [exact He|left; apply Rinv_0_lt_compat; exact Ha]).
  set (r := dot theta x). set (h := eta / alpha) in *.
  replace (eta * (tau + Rmax (- r - tau) 0 / alpha)) with (eta * tau + h * Rmax (- r - tau) 0) by (unfold h, Rdiv; ring).
  replace (eta * (1 - 1 / alpha) * tau + (-1 - h) * r) with (eta * tau + -1 * r + h * (- r - tau)) by (unfold h, Rdiv; ring).
  destruct (Rle_dec (- r - tau) 0) as [Hs|Hs].
  - rewrite (Rmax_right (- r - tau)) by exact Hs. rewrite Rmax_left; [ring|]. nra.
  - rewrite (Rmax_left (- r - tau)) by lra. rewrite Rmax_right; [ring|]. nra.
Qed.

(* ---------- matrices ---------- *)
Lemma tmatvec_length m C : Forall (fun c => length c = m) C -> forall g, length (tmatvec m C g) = m.
Proof.
  induction 1 as [|c C Hc F IH]; intros [|a g]; simpl; try apply repeat_length.
  rewrite vadd_length; rewrite vscal_length; [exact Hc|]. rewrite IH. exact Hc.
Qed.
Lemma dot_repeat0 m x : dot (repeat 0 m) x = 0.
Proof. unfold dot. revert x; induction m; intros [|a x]; simpl; try reflexivity. rewrite IHm. ring. Qed.
Lemma dot_tmatvec m C : Forall (fun c => length c = m) C -> forall g x, length x = m -> length g = length C -> dot (tmatvec m C g) x = dot g (matvec C x).
Proof.
  induction 1 as [|c C Hc F IH]; intros [|a g] x Hx Hg; simpl in Hg; try discriminate; simpl.
  - rewrite dot_repeat0. reflexivity.
  - rewrite dot_vadd_l; [|rewrite vscal_length, tmatvec_length by exact F; exact Hc|rewrite tmatvec_length by exact F; symmetry; exact Hx].
    rewrite dot_vscal_l, IH by (congruence || exact Hx). unfold dot at 3. simpl. reflexivity.
Qed.
Lemma matvec_length C x : length (matvec C x) = length C.
Proof. apply map_length. Qed.
Lemma dot_nonneg g : Forall (fun a => 0 <= a) g -> forall v, Forall (fun a => 0 <= a) v -> 0 <= dot g v.
Proof. unfold dot. induction 1 as [|a g Ha F IH]; intros v Fv; simpl; [lra|]. destruct Fv as [|b v Hb Fv]; simpl; [lra|]. specialize (IH v Fv). nra. Qed.

Section Pf.
Variables (m : nat) (C : list vec) (dv : vec) (p : nexp) (eta alpha rho : R) (samples : list vec).
Hypothesis Vp : valid_exp p.
Hypothesis He : 0 <= eta.
Hypothesis Ha : 0 < alpha.
Hypothesis HC : Forall (fun c => length c = m) C.
Hypothesis Hdv : length dv = length C.
Hypothesis Hs : Forall (fun x => length x = m) samples.

Lemma row_bound theta tau lam x si k g y : length theta = m -> length x = m ->
  pf_row C dv p eta alpha theta tau lam x si k g -> in_polyhedron m C dv x y ->
  piece eta alpha tau k (dot theta y) <= lam * pnorm p (vsub y x) + si.
Proof.
  intros Lt Lx (Lg & R1 & R2 & R3) [Ly P].
  assert (Lyx : length y = length x) by congruence.
  assert (S1 : 0 <= dot g (vsub dv (matvec C y))).
  { apply dot_nonneg; [exact R3|]. clear -P. unfold vsub, matvec. induction P; simpl; constructor; auto. lra. }
  set (w := vsub y x). assert (Lw : length w = m) by (unfold w; rewrite vsub_length by exact Lyx; exact Ly).
  assert (S2 : dot (vsub (tmatvec (length theta) C g) (vscal (pf_a eta alpha k) theta)) (vscal (-1) w) <= lam * pnorm p w).
  { rewrite dot_comm. apply Rle_trans with (1 := holder p _ _ Vp). rewrite pnorm_vscal, abs_m1, Rmult_1_l by exact Vp. rewrite Rmult_comm.
    apply Rmult_le_compat_r; [apply pnorm_nonneg|exact R2]. }
  assert (LgC : length g = length C) by (etransitivity; [exact Lg|exact Hdv]).
  assert (Lm : length (matvec C x) = length dv) by (rewrite matvec_length; congruence).
  assert (Lmy : length (matvec C y) = length dv) by (rewrite matvec_length; congruence).
  rewrite dot_vscal_r, Lt, dot_vsub_l, dot_tmatvec, dot_vscal_l in S2.
  2: exact HC. 2: exact Lw. 2: exact LgC.
  2: rewrite tmatvec_length, vscal_length by exact HC; congruence. 2: rewrite vscal_length; congruence.
  assert (EM : dot g (matvec C w) = dot g (matvec C y) - dot g (matvec C x)).
  { rewrite <- (dot_tmatvec m C HC g w Lw LgC), <- (dot_tmatvec m C HC g y Ly LgC), <- (dot_tmatvec m C HC g x Lx LgC).
    unfold w. apply dot_vsub_r; [rewrite tmatvec_length by exact HC; congruence|exact Lyx]. }
  assert (ET : dot theta w = dot theta y - dot theta x) by (apply dot_vsub_r; congruence).
  rewrite dot_vsub_r in S1, R1 by congruence. unfold piece. rewrite EM, ET in S2. nra.
Qed.

Lemma combine_Forall2 {A B D} (Q : A -> B -> Prop) : forall (l : list A) (s : list B) (g : list D), length s = length l -> length g = length l ->
  Forall (fun xsg => exists gg, Q (fst xsg) (fst (snd xsg)) /\ snd (snd xsg) = gg) (combine l (combine s g)) -> Forall2 Q l s.
Proof.
  induction l as [|x l IH]; intros [|b s] [|c g] L1 L2 F; simpl in *; try discriminate; constructor.
  - inversion F as [|? ? (gg & H & _) _]. exact H.
  - apply (IH s g); [congruence|congruence|inversion F; assumption].
Qed.

Lemma pf_upper theta tau lam s gamma c : pf_feasible m C dv p eta alpha samples theta tau lam s gamma ->
  pf_objective rho lam s <= c -> pf_worst_le (pnorm p) m C dv eta alpha rho samples theta tau c.
Proof.
  intros (Lt & _ & Hl & _ & Ls & Lg & F) Hc q O. apply Rle_trans with (pf_objective rho lam s); [|exact Hc].
  replace (pf_objective rho lam s) with (lam * rho + rmean s) by (unfold pf_objective, rmean, Rdiv; ring).
  apply (weak_duality (fun x y => pnorm p (vsub y x)) (in_polyhedron m C dv) samples rho _ lam s q Hl); [|exact O].
  apply (combine_Forall2 _ samples s gamma Ls Lg). rewrite Forall_forall in F, Hs |- *. intros [x [si [g0 g1]]] Hin. specialize (F _ Hin). simpl in *.
  exists (g0, g1). split; [|reflexivity]. intros y Hy. rewrite pieces_max by assumption. destruct F as [F0 F1].
  assert (Lx : length x = m) by (apply Hs; apply in_combine_l in Hin; exact Hin).
  apply Rmax_lub; eapply row_bound; eauto.
Qed.
End Pf.

(* ---------- no side constraints ---------- *)
Lemma default_polyhedron m x y : length y = m -> in_polyhedron m (pf_default_C m) pf_default_d x y.
Proof. intros H. split; [exact H|]. constructor; [|constructor]. rewrite dot_repeat0. lra. Qed.

Lemma default_tmatvec m u : length u = m -> vsub (tmatvec m (pf_default_C m) [0]) u = vscal (-1) u.
Proof. intros <-. unfold pf_default_C. simpl. induction u as [|a u IH]; simpl; [reflexivity|]. unfold vsub, vscal, vadd in *. simpl. f_equal; [ring|exact IH]. Qed.

Lemma pf_row_default m p eta alpha theta tau lam x si k : valid_exp p -> length theta = m ->
  piece eta alpha tau k (dot theta x) <= si -> Rabs (pf_a eta alpha k) * pnorm (pf_q p) theta <= lam ->
  pf_row (pf_default_C m) pf_default_d p eta alpha theta tau lam x si k [0].
Proof.
  intros Vp Lt H1 H2. split; [reflexivity|]. split; [|split].
  - unfold dot at 2. simpl. unfold piece in H1. lra.
  - rewrite Lt, default_tmatvec by (rewrite vscal_length; exact Lt). rewrite !pnorm_vscal, abs_m1 by (apply pf_q_valid; exact Vp). lra.
  - constructor; [lra|constructor].
Qed.

Lemma pf_exact_default m p eta alpha rho samples theta tau c : valid_exp p -> 0 <= eta -> 0 < alpha -> 0 <= rho -> samples <> [] ->
  Forall (fun x => length x = m) samples -> length theta = m -> rsum theta = 1 -> Forall (fun t => 0 <= t) theta ->
  (pf_worst_le (pnorm p) m (pf_default_C m) pf_default_d eta alpha rho samples theta tau c <->
   exists lam s gamma, pf_feasible m (pf_default_C m) pf_default_d p eta alpha samples theta tau lam s gamma /\ pf_objective rho lam s <= c).
Proof.
  intros Vp He Ha Hr Hn Hs Lt St Ft. split.
  - intros W. pose proof (pnorm_nonneg (pf_q p) theta) as N0.
    assert (Hh : 0 <= eta / alpha) by (apply Rmult_le_pos; [exact He|left; apply Rinv_0_lt_compat; exact Ha]).
    set (g := (1 + eta / alpha) * pnorm (pf_q p) theta).
    exists g, (map (mean_risk eta alpha theta tau) samples), (map (fun _ => ([0], [0])) samples). split.
    + repeat split; auto; try (apply map_length); [unfold g; nra|].
      apply Forall_forall. intros [x [si [g0 g1]]] Hin.
      assert (E : si = mean_risk eta alpha theta tau x /\ g0 = [0] /\ g1 = [0]).
      { clear -Hin. induction samples as [|y l IH]; simpl in Hin; [contradiction|]. destruct Hin as [Hin|Hin]; [injection Hin; intros; subst; auto|auto]. }
      destruct E as (-> & -> & ->). simpl. rewrite pieces_max by assumption. split; apply pf_row_default; auto.
      * apply Rmax_l.
      * unfold pf_a. rewrite abs_m1. unfold g. nra.
      * apply Rmax_r.
      * unfold pf_a. replace (Rabs (-1 - eta / alpha)) with (1 + eta / alpha); [unfold g; lra|]. rewrite Rabs_left by lra. ring.
    + destruct (dual_attained p theta Vp Ft) as (v & Lv & Nv & Dv).
      assert (V0 : forall x, pnorm p (vsub x x) = 0) by (intros x; apply pnorm_all0, vsub_self).
      assert (FM := far_moves (fun x y => pnorm p (vsub y x)) (in_polyhedron m (pf_default_C m) pf_default_d) samples rho 0 g
                (- rmean (map (fun x => piece eta alpha tau true (dot theta x)) samples)) (mean_risk eta alpha theta tau) (move (fun x => x) samples)
                (fun D => move (fun x => vadd x (vscal (- D) v)) samples) ltac:(lra)).
      unfold pf_worst_le in W. replace (pf_objective rho g (map (mean_risk eta alpha theta tau) samples))
        with (tplan_value (mean_risk eta alpha theta tau) (move (fun x => x) samples) + g * (rho - 0))
        by (rewrite move_value; unfold pf_objective, rmean, Rdiv; change (map (fun x => mean_risk eta alpha theta tau x) samples) with (map (mean_risk eta alpha theta tau) samples); set (u := rsum _); set (n := INR _); idtac; ring).
      rewrite Forall_forall in Hs.
      apply FM; [| | |exact W].
      * apply move_ok; [intros x Hx; apply default_polyhedron; auto|]. rewrite (map_ext _ (fun _ => 0)) by (intros; apply V0).
        rewrite rmean_map_const by exact Hn. lra.
      * intros D HD. apply move_ok.
        { intros x Hx. apply default_polyhedron. rewrite vadd_length by (rewrite vscal_length, Lv, Lt; auto). auto. }
        apply Rle_trans with (rmean (map (fun _ => D) samples)); [|rewrite rmean_map_const by exact Hn; lra].
        apply rmean_map_le. intros x Hx. rewrite vsub_vadd_l by (rewrite vscal_length, Lv, Lt; auto).
        rewrite pnorm_vscal, Rabs_Ropp, Rabs_pos_eq by assumption. rewrite <- (Rmult_1_r D) at 2. apply Rmult_le_compat_l; assumption.
      * intros D HD. rewrite move_value. rewrite <- (rmean_map_const (g * D) samples Hn). unfold Rminus. rewrite Ropp_involutive, <- rmean_map_plus.
        apply rmean_map_le. intros x Hx. rewrite pieces_max by assumption. eapply Rle_trans; [|apply Rmax_r].
        rewrite dot_vadd_r by (rewrite ?vscal_length, ?Lv; rewrite ?Lt; auto; symmetry; auto). rewrite dot_vscal_r, Dv. unfold piece, g, pf_a. right. ring.
  - intros (lam & s & gamma & F & L). apply (pf_upper m (pf_default_C m) pf_default_d p eta alpha rho samples Vp He Ha) with (lam := lam) (s := s) (gamma := gamma); auto.
    constructor; [apply repeat_length|constructor].
Qed.

(* ---------- the exponent is the power of the cost ---------- *)
Lemma pf_wrong_exponent :
  exists m eta alpha rho samples theta tau lam s gamma,
    let cost_p := PFin 2 in let cost_power := 1 in
    0 <= eta /\ 0 < alpha /\ 0 < rho /\ samples <> [] /\ Forall (fun x => length x = m) samples /\
    pf_feasible m (pf_default_C m) pf_default_d (pf_exponent_of_cost cost_p cost_power) eta alpha samples theta tau lam s gamma /\
    (forall theta' tau' lam' s' gamma',
       pf_feasible m (pf_default_C m) pf_default_d (pf_exponent_of_cost cost_p cost_power) eta alpha samples theta' tau' lam' s' gamma' ->
       pf_objective rho lam s <= pf_objective rho lam' s') /\
    ~ tworst_le (fun x y => nc_value cost_p cost_power x y) (in_polyhedron m (pf_default_C m) pf_default_d) samples rho (mean_risk eta alpha theta tau) (pf_objective rho lam s).
Proof.
  exists 2%nat, 0, 1, 1, [[0; 0]], [1 / 2; 1 / 2], 0, (1 / 2), [0], [([0], [0])]. cbv zeta.
  split; [lra|]. split; [lra|]. split; [lra|]. split; [discriminate|]. split; [constructor; [reflexivity|constructor]|].
  assert (Ht : Forall (fun t => 0 <= t) [1 / 2; 1 / 2]) by (repeat (apply Forall_cons; [lra|]); apply Forall_nil).
  assert (A5 : Rabs (1 / 2) = 1 / 2) by (apply Rabs_pos_eq; lra).
  split; [|split].
  - split; [reflexivity|]. split; [simpl; lra|]. split; [lra|]. split; [exact Ht|]. split; [reflexivity|]. split; [reflexivity|].
    apply Forall_cons; [|apply Forall_nil]. unfold pf_exponent_of_cost.
    split; (apply pf_row_default; [simpl; lra|reflexivity| |]); cbn [fst snd].
    + unfold piece, pf_a, pf_b, dot. simpl. lra.
    + unfold pf_a, pf_q. rewrite abs_m1. destruct (Reqb 1 1) eqn:E; [|apply Reqb_false in E; lra]. simpl. rewrite !A5. rewrite (Rmax_left (1/2) 0), Rmax_left by lra. lra.
    + unfold piece, pf_a, pf_b, dot. simpl. lra.
    + unfold pf_a, pf_q. replace (-1 - 0 / 1) with (-1) by lra. rewrite abs_m1. destruct (Reqb 1 1) eqn:E; [|apply Reqb_false in E; lra].
      simpl. rewrite !A5. rewrite (Rmax_left (1/2) 0), Rmax_left by lra. lra.
  - intros theta' tau' lam' s' gamma' (Lt & St & Hl & Ft & Ls & Lg & F).
    destruct theta' as [|t1 [|t2 [|]]]; simpl in Lt; try discriminate. simpl in St. destruct s' as [|s1 [|]]; simpl in Ls; try discriminate.
    destruct gamma' as [|[g0 g1] [|]]; simpl in Lg; try discriminate. simpl in F. apply Forall_inv in F. destruct F as [(G1 & G2 & G3 & G4) _]. cbn [fst snd] in *.
    assert (P1 : 0 <= t1) by (inversion Ft; assumption). assert (P2 : 0 <= t2) by (inversion Ft as [|? ? ? Ft']; inversion Ft'; assumption).
    destruct g0 as [|a [|]]; simpl in G1; try discriminate.
    unfold pf_exponent_of_cost, pf_q in G3. destruct (Reqb 1 1) eqn:E; [|apply Reqb_false in E; lra].
    unfold pf_objective. simpl. unfold dot in G2. simpl in G2. unfold pf_b, pf_a in G2.
    simpl in G3. unfold pf_a in G3.
    pose proof (Rmax_l (Rabs (a * 0 + 0 - -1 * t1)) (Rmax (Rabs (a * 0 + 0 - -1 * t2)) 0)).
    pose proof (Rmax_r (Rabs (a * 0 + 0 - -1 * t1)) (Rmax (Rabs (a * 0 + 0 - -1 * t2)) 0)).
    pose proof (Rmax_l (Rabs (a * 0 + 0 - -1 * t2)) 0).
    replace (a * 0 + 0 - -1 * t1) with t1 in * by ring. replace (a * 0 + 0 - -1 * t2) with t2 in * by ring. rewrite !Rabs_pos_eq in * by assumption. unfold dot in G2; simpl in G2. lra.
  - intros W. assert (S2 : sqrt 2 * sqrt 2 = 2) by (apply sqrt_sqrt; lra). pose proof (sqrt_pos 2) as S0.
    assert (S1 : 1 < sqrt 2) by (rewrite <- sqrt_1; apply sqrt_lt_1; lra).
    set (h := - / sqrt 2). assert (Hh : h * h = 1 / 2) by (unfold h; replace (- / sqrt 2 * - / sqrt 2) with (/ sqrt 2 * / sqrt 2) by ring; rewrite <- Rinv_mult, S2; lra).
    assert (V := W (move (fun _ => [h; h]) [[0; 0]])). rewrite move_value in V.
    assert (Hv : rmean (map (fun x => mean_risk 0 1 [1 / 2; 1 / 2] 0 [h; h]) [[0;0]]) = / sqrt 2).
    { unfold rmean, mean_risk, dot. simpl. unfold h. lra. }
    assert (Ob : pf_objective 1 (1 / 2) [0] = 1 / 2) by (unfold pf_objective; simpl; lra). rewrite Ob in V.
    assert (Bad : / sqrt 2 <= 1 / 2).
    { rewrite <- Hv. apply V. apply move_ok; [intros x _; apply default_polyhedron; reflexivity|].
      unfold rmean. simpl. unfold nc_value. rewrite pnorm_2, tpow_pos by lra.
      assert (N : norm2 (vsub [0; 0] [h; h]) = 1).
      { unfold norm2. replace (sqnorm (vsub [0; 0] [h; h])) with 1; [apply sqrt_1|]. unfold sqnorm, dot. simpl. replace ((0 - h) * (0 - h)) with (h * h) by ring. rewrite Hh. lra. }
      rewrite N, ppow_one. lra. }
    assert (/ sqrt 2 * sqrt 2 = 1) by (apply Rinv_l; lra). nra.
Qed.
