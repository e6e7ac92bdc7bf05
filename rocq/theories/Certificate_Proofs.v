(* For C118: bounds of the soft robust objective by worst-case values. *)
From Coq Require Import Reals List Bool Arith Lra Lia Psatz.
From Verif Require Import PyBase RList XReal LogMeanExp Loss_Spec Costs_Model Costs_Spec Costs_Proofs DedProg_Model Tensor TDual_Model TDual_Spec TDual_Proofs EstDual_Spec Certificate_Spec.
Import ListNotations.
Local Open Scope R_scope.
Local Notation length := List.length.

(* ---------- a soft maximum does not exceed an upper bound ---------- *)
Lemma ln_quot s n : 0 < s -> 0 < n -> ln (s / n) = ln s - ln n.
Proof. intros Hs Hn. unfold Rdiv. rewrite ln_mult, ln_Rinv; [ring|assumption|assumption|apply Rinv_0_lt_compat; assumption]. Qed.
Lemma soft_le e B f : 0 < e -> f <> [] -> (forall a, In a f -> a <= B) -> e * ln (rmean (map exp (map (fun a => a / e) f))) <= B.
Proof.
  intros He Hf H. destruct (softmaximum_bounds e f B He Hf H) as [_ Q]. unfold softmaximum, lme in Q.
  replace (ln (rmean (map exp (map (fun a => a / e) f)))) with (ln (sumexp (map (fun a => a / e) f)) - ln (INR (length (map (fun a => a / e) f)))); [exact Q|].
  pose proof (map_neq_nil (fun a => a / e) f Hf) as Hf'. unfold rmean. rewrite (map_length exp). fold (sumexp (map (fun a => a / e) f)).
  pose proof (sumexp_pos _ Hf') as P1. pose proof (INR_length_pos _ Hf') as P2. symmetry. apply ln_quot; assumption.
Qed.

Lemma robust_labelled_le cost power rho e lam L xs ys zs zls (B : nat -> R) : 0 < e -> zs <> [] -> length zls = length zs ->
  (forall j z zl, (j < length xs)%nat -> In (z, zl) (List.combine zs zls) -> L (nth j z []) (nth j zl []) - lam * cost (nth j xs [], nth j ys []) (nth j z [], nth j zl []) <= B j) ->
  robust_labelled cost power rho e lam L xs ys zs zls <= lam * Rpower rho power + rmean (map B (seq 0 (length xs))).
Proof.
  intros He Hz El H. unfold robust_labelled. apply Rplus_le_compat_l, rmean_map_le. intros j Hj. apply in_seq in Hj.
  set (f := map (fun q => L (nth j (fst q) []) (nth j (snd q) []) - lam * cost (nth j xs [], nth j ys []) (nth j (fst q) [], nth j (snd q) [])) (List.combine zs zls)).
  assert (Q : e * ln (rmean (map exp (map (fun a => a / e) f))) <= B j).
  { apply soft_le; [exact He| |].
    - apply map_neq_nil. destruct zs, zls; try contradiction; try discriminate.
    - intros a Ha. apply in_map_iff in Ha. destruct Ha as ([z zl] & <- & Hin). apply H; [lia|exact Hin]. }
  refine (Rle_trans _ _ _ _ Q). right. do 4 f_equal. unfold f. rewrite map_map. clear -El. revert zls El. induction zs as [|z zs IH]; intros [|zl zls] El; try discriminate; [reflexivity|]. cbn. f_equal. apply IH. injection El; auto.
Qed.
Lemma robust_le cost power rho e lam L xs zs (B : nat -> R) : 0 < e -> zs <> [] ->
  (forall j z, (j < length xs)%nat -> In z zs -> L (nth j z []) - lam * cost (nth j xs []) (nth j z []) <= B j) ->
  robust cost power rho e lam L xs zs <= lam * Rpower rho power + rmean (map B (seq 0 (length xs))).
Proof.
  intros He Hz H. unfold robust. apply Rplus_le_compat_l, rmean_map_le. intros j Hj. apply in_seq in Hj.
  rewrite <- (map_map (fun z => L (nth j z []) - lam * cost (nth j xs []) (nth j z [])) (fun a => a / e)). apply soft_le; [exact He|apply map_neq_nil; exact Hz|].
  intros a Ha. apply in_map_iff in Ha. destruct Ha as (z & <- & Hin). apply H; [lia|exact Hin].
Qed.

(* ---------- Lipschitz losses ---------- *)
(* W t - (W rho^(1-p) / p) t^p <= W rho - (W rho^(1-p) / p) rho^p *)
Lemma lip_gain W rho p t : 0 <= W -> 0 < rho -> 1 <= p -> 0 <= t -> W * t - lip_multiplier W rho p * ppow t p <= W * rho - lip_multiplier W rho p * Rpower rho p.
Proof.
  intros HW Hr Hp Ht. unfold lip_multiplier. pose proof (bernoulli (t / rho) p Hp ltac:(apply Rmult_le_pos; [exact Ht|left; apply Rinv_0_lt_compat; exact Hr])) as Q.
  assert (E : ppow (t / rho) p * Rpower rho p = ppow t p).
  { destruct (Rle_lt_or_eq_dec 0 t Ht) as [P|<-].
    - rewrite !ppow_pos by (try exact P; apply Rdiv_lt_0_compat; assumption). rewrite Rpower_mult_distr by (try apply Rdiv_lt_0_compat; assumption). f_equal. field. lra.
    - unfold Rdiv. rewrite Rmult_0_l, !ppow_0. ring. }
  assert (P1 : Rpower rho (1 - p) * Rpower rho p = rho) by (rewrite <- Rpower_plus; replace (1 - p + p) with 1 by ring; apply Rpower_1; exact Hr).
  rewrite <- E. assert (E2 : W * Rpower rho (1 - p) / p * Rpower rho p = W * rho / p) by (transitivity (W * (Rpower rho (1 - p) * Rpower rho p) / p); [field; lra|rewrite P1; reflexivity]).
  replace (W * Rpower rho (1 - p) / p * (ppow (t / rho) p * Rpower rho p)) with (W * Rpower rho (1 - p) / p * Rpower rho p * ppow (t / rho) p) by ring. rewrite E2.
  assert (K : 0 <= W * rho / p) by (apply Rmult_le_pos; [nra|left; apply Rinv_0_lt_compat; lra]).
  apply (Rmult_le_compat_l (W * rho / p)) in Q; [|exact K]. replace (W * rho / p * (1 + p * (t / rho - 1))) with (W * rho / p + W * t - W * rho) in Q by (field; lra). lra.
Qed.

(* ---------- squared residuals ---------- *)
Lemma abs_zero u : Rabs u <= 0 -> u = 0.
Proof. intros H. pose proof (Rle_abs u). pose proof (Rle_abs (- u)). rewrite Rabs_Ropp in *. lra. Qed.
Lemma quad_gain W r u t lam : 0 <= W -> Rabs u <= W * t -> W * W < lam -> (r + u) ^ 2 - lam * (t * t) <= r * r * lam / (lam - W * W).
Proof.
  intros HW Hu Hl. assert (Hu2 : u * u <= W * W * (t * t)).
  { rewrite <- (Rabs_right (u * u)) by (pose proof (Rle_0_sqr u); unfold Rsqr in *; lra). rewrite Rabs_mult. pose proof (Rabs_pos u). nra. }
  apply Rmult_le_reg_r with (lam - W * W); [lra|]. unfold Rdiv. rewrite (Rmult_assoc (r * r * lam)), Rinv_l, Rmult_1_r by lra. set (D := lam - W * W) in *.
  destruct (Req_dec W 0) as [->|NW].
  - assert (u = 0) by (rewrite Rmult_0_l in Hu; apply abs_zero; exact Hu). subst u. unfold D. ring_simplify. assert (0 <= lam ^ 2 * t ^ 2) by (rewrite <- Rpow_mult_distr; apply pow2_ge_0). nra.
  - assert (W2 : 0 < W * W) by nra. apply Rmult_le_reg_l with (W * W); [exact W2|].
    assert (S : 0 <= (r * (W * W) - D * u) ^ 2) by apply pow2_ge_0. assert (HD : 0 < D) by (unfold D; lra). assert (EL : lam = D + W * W) by (unfold D; ring). rewrite EL. clearbody D.
    assert (B : (D + W * W) * D * (u * u) <= (D + W * W) * D * (W * W * (t * t))) by (apply Rmult_le_compat_l; [nra|exact Hu2]).
    nra.
Qed.
(* with S the root of the mean squared residual and the best multiplier W^2 + W S / rho *)
Lemma quad_total W S rho : 0 < W -> 0 < S -> 0 < rho -> let lam := quad_multiplier W S rho in lam * (rho * rho) + S * S * lam / (lam - W * W) = (S + rho * W) ^ 2.
Proof. intros HW HS Hr lam. unfold lam, quad_multiplier. field. repeat split; try lra. replace (W * W * rho + W * S - W * W * rho) with (W * S) by ring. nra. Qed.

Lemma root_mean_sq {A} (f : A -> R) l : l <> [] -> let S := sqrt (rmean (map (fun a => f a * f a) l)) in 0 <= S /\ rmean (map (fun a => f a * f a) l) = S * S /\ (S = 0 -> forall a, In a l -> f a = 0).
Proof.
  intros Hl S. assert (P : 0 <= rsum (map (fun a => f a * f a) l)).
  { apply rsum_nonneg. apply Forall_map, Forall_forall. intros; apply Rle_0_sqr. }
  assert (Hn : 0 < INR (length l)) by (apply lt_0_INR; destruct l; [contradiction|cbn; lia]).
  assert (M : 0 <= rmean (map (fun a => f a * f a) l)) by (unfold rmean; rewrite map_length; apply Rmult_le_pos; [exact P|left; apply Rinv_0_lt_compat; exact Hn]).
  split; [apply sqrt_pos|]. split; [symmetry; apply sqrt_sqrt; exact M|]. intros E. apply sqrt_eq_0 in E; [|exact M].
  unfold rmean in E. rewrite map_length in E. assert (Z : rsum (map (fun a => f a * f a) l) = 0) by (apply Rmult_integral in E; destruct E as [E|E]; [exact E|pose proof (Rinv_0_lt_compat _ Hn); lra]).
  clear -Z. induction l as [|a l IH]; [intros b []|]. intros b [<-|Hb]; cbn [map rsum] in Z.
  - assert (0 <= rsum (map (fun a => f a * f a) l)) by (apply rsum_nonneg, Forall_map, Forall_forall; intros; apply Rle_0_sqr). pose proof (Rle_0_sqr (f a)). unfold Rsqr in *. assert (f a * f a = 0) by lra. apply Rmult_integral in H1. tauto.
  - apply IH; [|exact Hb]. assert (0 <= rsum (map (fun a => f a * f a) l)) by (apply rsum_nonneg, Forall_map, Forall_forall; intros; apply Rle_0_sqr). pose proof (Rle_0_sqr (f a)). unfold Rsqr in *. lra.
Qed.

(* all rows: B_j bounds the gain of row j with the best multiplier *)
Lemma quad_rows {A} (f : A -> R) (l : list A) W rho pen : l <> [] -> 0 <= W -> 0 < rho -> let S := sqrt (rmean (map (fun a => f a * f a) l)) in let lam := quad_multiplier W S rho in
  0 <= lam /\ exists B, (forall a u t, In a l -> 0 <= t -> Rabs u <= W * t -> (f a + u) ^ 2 + pen - lam * (t * t) <= B a) /\ lam * (rho * rho) + rmean (map B l) <= (S + rho * W) ^ 2 + pen.
Proof.
  intros Hl HW Hr S lam. destruct (root_mean_sq f l Hl) as (S0 & SS & SZ). fold S in S0, SS, SZ. split.
  { unfold lam, quad_multiplier. assert (0 <= W * S / rho) by (apply Rmult_le_pos; [nra|left; apply Rinv_0_lt_compat; exact Hr]). nra. }
  destruct (Rle_lt_or_eq_dec 0 W HW) as [PW|ZW].
  - destruct (Rle_lt_or_eq_dec 0 S S0) as [PS|ZS].
    + exists (fun a => f a * f a * lam / (lam - W * W) + pen). split.
      * intros a u t _ Ht Hu. pose proof (quad_gain W (f a) u t lam HW Hu) as Q. apply Rplus_le_compat_r with (r := pen) in Q; [lra|]. unfold lam, quad_multiplier. assert (0 < W * S / rho) by (apply Rdiv_lt_0_compat; nra). lra.
      * rewrite rmean_map_plus, rmean_map_const by exact Hl. rewrite (map_ext _ (fun a => lam / (lam - W * W) * (f a * f a))) by (intros; unfold Rdiv; ring). rewrite rmean_map_scal, SS.
        pose proof (quad_total W S rho PW PS Hr) as Q. cbv zeta in Q. fold lam in Q. unfold Rdiv in *. lra.
    + exists (fun _ => pen). assert (EL : lam = W * W) by (unfold lam, quad_multiplier; rewrite <- ZS; unfold Rdiv; ring). split.
      * intros a u t Ha Ht Hu. rewrite (SZ (eq_sym ZS) a Ha), EL. assert (u * u <= W * W * (t * t)); [|lra].
        rewrite <- (Rabs_right (u * u)) by (pose proof (Rle_0_sqr u); unfold Rsqr in *; lra). rewrite Rabs_mult. pose proof (Rabs_pos u). nra.
      * rewrite rmean_map_const by exact Hl. rewrite EL, <- ZS. lra.
  - exists (fun a => f a * f a + pen). assert (EL : lam = 0) by (unfold lam, quad_multiplier; rewrite <- ZW; unfold Rdiv; ring). split.
    + intros a u t Ha Ht Hu. rewrite <- ZW, Rmult_0_l in Hu. assert (u = 0) by (apply abs_zero; exact Hu). subst u. rewrite EL. lra.
    + rewrite rmean_map_plus, rmean_map_const, SS by exact Hl. rewrite EL, <- ZW. lra.
Qed.
