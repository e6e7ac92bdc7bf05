(* Proofs about the initial multiplier for labelled costs. *)
From Coq Require Import Reals List Lra Lia Psatz.
From Verif Require Import PyBase RList XReal Costs_Model Costs_Proofs InitGuess_Model InitGuess_Spec InitGuess_Proofs InitLabel_Spec.
Import ListNotations.
Local Open Scope R_scope.

(* what the code takes for the size of a gradient, and its dual norm *)
Definition code_size (k : R) (g : vec * vec) : R := label_dist k (fst g) (snd g).
Definition dual_size (k : R) (g : vec * vec) : R := (1 + k) * Rmax (norm2 (fst g)) (norm2 (snd g) / k).

Lemma dual_size_nonneg k g : 0 < k -> 0 <= dual_size k g.
Proof. intros K. unfold dual_size. apply Rmult_le_pos; [lra|]. apply Rle_trans with (norm2 (fst g)); [apply norm2_nonneg|apply Rmax_l]. Qed.
Lemma code_size_nonneg k g : 0 < k -> 0 <= code_size k g.
Proof.
  intros K. unfold code_size, label_dist. pose proof (norm2_nonneg (fst g)). pose proof (norm2_nonneg (snd g)). apply Rmult_le_pos; [nra|left; apply Rinv_0_lt_compat; lra].
Qed.
Lemma norm2_one a : 0 <= a -> norm2 [a] = a.
Proof. apply norm2_single. Qed.

(* Hoelder for the labelled distance *)
Lemma label_holder k g d dl : 0 < k -> length d = length (fst g) -> length dl = length (snd g) ->
  dot (fst g) d + dot (snd g) dl <= dual_size k g * label_dist k d dl.
Proof.
  intros K L1 L2. pose proof (cauchy_schwarz (fst g) d (eq_sym L1)) as C1. pose proof (cauchy_schwarz (snd g) dl (eq_sym L2)) as C2.
  pose proof (norm2_nonneg d) as N1. pose proof (norm2_nonneg dl) as N2.
  set (m := Rmax (norm2 (fst g)) (norm2 (snd g) / k)). assert (M1 : norm2 (fst g) <= m) by apply Rmax_l.
  assert (M2 : norm2 (snd g) <= m * k). { assert (Q : norm2 (snd g) / k <= m) by apply Rmax_r. apply (Rmult_le_compat_r k) in Q; [|lra]. replace (norm2 (snd g) / k * k) with (norm2 (snd g)) in Q by (field; lra). exact Q. }
  change (dual_size k g) with ((1 + k) * m). unfold label_dist. replace ((1 + k) * m * ((norm2 d + k * norm2 dl) / (1 + k))) with (m * norm2 d + m * k * norm2 dl) by (field; lra).
  assert (norm2 (fst g) * norm2 d <= m * norm2 d) by (apply Rmult_le_compat_r; assumption).
  assert (norm2 (snd g) * norm2 dl <= m * k * norm2 dl) by (apply Rmult_le_compat_r; assumption).
  apply Rplus_le_compat; eapply Rle_trans; eassumption.
Qed.
Lemma norm2_scal0 (g : vec) : norm2 (vscal 0 g) = 0.
Proof. rewrite norm2_vscal, Rabs_R0. ring. Qed.
Lemma unit_along (g : vec) t : 0 <= t -> 0 < norm2 g -> norm2 (vscal (t / norm2 g) g) = t /\ dot g (vscal (t / norm2 g) g) = t * norm2 g.
Proof.
  intros Ht Hg. split.
  - rewrite norm2_vscal, Rabs_right; [field; lra|]. apply Rle_ge. apply Rmult_le_pos; [exact Ht|left; apply Rinv_0_lt_compat; exact Hg].
  - rewrite dot_vscal_r. fold (sqnorm g). rewrite <- norm2_sq. field. lra.
Qed.
(* attained at any given distance *)
Lemma label_attained k g t : 0 < k -> 0 <= t -> 0 < dual_size k g ->
  exists d dl, length d = length (fst g) /\ length dl = length (snd g) /\ label_dist k d dl = t /\ dot (fst g) d + dot (snd g) dl = dual_size k g * t.
Proof.
  intros K Ht Hd. unfold dual_size in *. set (a := norm2 (fst g)) in *. set (b := norm2 (snd g)) in *. pose proof (norm2_nonneg (fst g)) as Na. pose proof (norm2_nonneg (snd g)) as Nb. fold a b in Na, Nb.
  assert (Hm : 0 < Rmax a (b / k)) by (apply (Rmult_lt_reg_l (1 + k)); lra).
  destruct (Rle_dec (b / k) a) as [Hab|Hab].
  - rewrite Rmax_left in * by exact Hab. destruct (unit_along (fst g) (t * (1 + k)) ltac:(nra) Hm) as [U1 U2].
    exists (vscal (t * (1 + k) / a) (fst g)), (vscal 0 (snd g)). rewrite !vscal_length. split; [reflexivity|]. split; [reflexivity|]. unfold a in *. unfold label_dist. rewrite U1, norm2_scal0, U2, dot_vscal_r.
    split; [field; lra|ring].
  - rewrite Rmax_right in * by lra. assert (Hb : 0 < b). { apply (Rmult_lt_compat_r k) in Hm; [|exact K]. replace (b / k * k) with b in Hm by (field; lra). lra. }
    destruct (unit_along (snd g) (t * (1 + k) / k)) as [U1 U2]; [apply Rmult_le_pos; [nra|left; apply Rinv_0_lt_compat; exact K]|exact Hb|].
    exists (vscal 0 (fst g)), (vscal (t * (1 + k) / k / b) (snd g)). rewrite !vscal_length. split; [reflexivity|]. split; [reflexivity|]. unfold b in *. unfold label_dist. rewrite U1, norm2_scal0, U2, dot_vscal_r.
    split; [field; lra|field; lra].
Qed.

Lemma lub_equiv (E F : R -> Prop) v : (forall x, E x -> exists y, F y /\ x <= y) -> (forall y, F y -> exists x, E x /\ y <= x) -> (is_lub E v <-> is_lub F v).
Proof.
  intros H1 H2. split; intros [U L]; split.
  - intros y Hy. destruct (H2 y Hy) as (x & Hx & Le). specialize (U x Hx). lra.
  - intros b Hb. apply L. intros x Hx. destruct (H1 x Hx) as (y & Hy & Le). specialize (Hb y Hy). lra.
  - intros x Hx. destruct (H1 x Hx) as (y & Hy & Le). specialize (U y Hy). lra.
  - intros b Hb. apply L. intros y Hy. destruct (H2 y Hy) as (x & Hx & Le). specialize (Hb x Hx). lra.
Qed.

(* the gain of a labelled gradient is that of a number, its dual norm *)
Lemma gain_reduces k p lam g v : 0 < k -> 0 <= lam -> (lin_gain_labelled (label_dist k) p lam g v <-> lin_gain norm2 p lam [dual_size k g] v).
Proof.
  intros K Hl. unfold lin_gain_labelled, lin_gain. apply lub_equiv.
  - intros x (d & dl & L1 & L2 & ->). exists (dual_size k g * label_dist k d dl - lam * ppow (label_dist k d dl) p).
    assert (N : 0 <= label_dist k d dl) by (apply (code_size_nonneg k (d, dl) K)). split.
    + exists [label_dist k d dl]. split; [reflexivity|]. rewrite norm2_one by exact N. unfold dot. cbn. ring.
    + unfold Rminus. apply Rplus_le_compat_r. exact (label_holder k g d dl K L1 L2).
  - intros y (d & Ld & ->). destruct d as [|s [|]]; try discriminate. replace (dot [dual_size k g] [s]) with (dual_size k g * s) by (unfold dot; cbn; ring).
    assert (Ns : norm2 [s] = Rabs s). { unfold norm2, sqnorm, dot. cbn. rewrite Rplus_0_r. apply sqrt_Rsqr_abs. }
    rewrite Ns. destruct (Rle_lt_or_eq_dec _ _ (dual_size_nonneg k g K)) as [Hp|Hz].
    + destruct (label_attained k g (Rabs s) K (Rabs_pos s) Hp) as (d & dl & L1 & L2 & E1 & E2). exists (dual_size k g * Rabs s - lam * ppow (Rabs s) p). split.
      * exists d, dl. rewrite E1, E2. auto.
      * pose proof (Rle_abs s). assert (dual_size k g * s <= dual_size k g * Rabs s) by (apply Rmult_le_compat_l; lra). lra.
    + exists 0. split.
      * exists (vscal 0 (fst g)), (vscal 0 (snd g)). rewrite !vscal_length. split; [reflexivity|]. split; [reflexivity|]. rewrite !dot_vscal_r. unfold label_dist. rewrite !norm2_scal0.
        replace ((0 + k * 0) / (1 + k)) with 0 by (field; lra). rewrite ppow_0. ring.
      * rewrite <- Hz. pose proof (ppow_nonneg (Rabs s) p). nra.
Qed.
Lemma dual_reduces k p rho lam grads v : 0 < k -> 0 <= lam ->
  (lin_dual_labelled (label_dist k) p rho grads lam v <-> lin_dual norm2 p rho (map (fun g => [dual_size k g]) grads) lam v).
Proof.
  intros K Hl. unfold lin_dual_labelled, lin_dual.
  assert (Q : forall gains, Forall2 (lin_gain_labelled (label_dist k) p lam) grads gains <-> Forall2 (lin_gain norm2 p lam) (map (fun g => [dual_size k g]) grads) gains).
  { induction grads as [|g grads IH]; intros gains; split; intros H; inversion H; subst; cbn; constructor; try (apply IH; assumption); try (apply (gain_reduces k); assumption). }
  split; intros (gains & H & ->); exists gains; (split; [apply Q; exact H|reflexivity]).
Qed.

Definition nonzero_pair (g : vec * vec) : Prop := nonzero (fst g) \/ nonzero (snd g).
Lemma dual_pos k g : 0 < k -> nonzero_pair g -> 0 < dual_size k g.
Proof.
  intros K [H|H]; apply nonzero_norm in H; unfold dual_size; apply Rmult_lt_0_compat; try lra.
  - apply Rlt_le_trans with (1 := H). apply Rmax_l.
  - apply Rlt_le_trans with (norm2 (snd g) / k); [apply Rdiv_lt_0_compat; assumption|apply Rmax_r].
Qed.
Lemma code_pos k g : 0 < k -> nonzero_pair g -> 0 < code_size k g.
Proof.
  intros K H. unfold code_size, label_dist. pose proof (norm2_nonneg (fst g)). pose proof (norm2_nonneg (snd g)). destruct H as [H|H]; apply nonzero_norm in H; apply Rdiv_lt_0_compat; nra.
Qed.
Lemma single_nonzero a : a <> 0 -> nonzero [a].
Proof. intros H. exists a. split; [left; reflexivity|exact H]. Qed.
Lemma exists_sizes (f : vec * vec -> R) grads : (forall g, nonzero_pair g -> 0 < f g) -> Exists nonzero_pair grads -> Exists nonzero (map (fun g => [f g]) grads).
Proof.
  intros Hf H. induction H as [g l Hg|g l H IH]; cbn; [apply Exists_cons_hd|apply Exists_cons_tl; exact IH]. apply single_nonzero. specialize (Hf g Hg). lra.
Qed.

(* the norms computed by the code are the powers of code_size *)
Lemma code_norms k p grads : 0 < k -> 0 < p ->
  grads_norms_labelled (PFin 2) p (KFin k) grads = Ok (grads_norms (PFin 2) p (map (fun g => [code_size k g]) grads)).
Proof.
  intros K Hp. rewrite grads_norms_2 by exact Hp. induction grads as [|[g h] grads IH]; [reflexivity|]. cbn [grads_norms_labelled]. unfold nlc_value.
  assert (E : Reqb k 0 = false) by (apply Reqb_false; lra). rewrite E, !vsub_zeros, !pnorm_2, tpow_pos by exact Hp. cbn [bind]. rewrite IH. cbn [bind map]. do 2 f_equal.
  rewrite norm2_one by (apply code_size_nonneg; exact K). reflexivity.
Qed.

Lemma size_ratio k g : 0 < k -> code_size k g <= (1 + k * k) / ((1 + k) * (1 + k)) * dual_size k g.
Proof.
  intros K. unfold code_size, dual_size, label_dist. set (m := Rmax (norm2 (fst g)) (norm2 (snd g) / k)). assert (M1 : norm2 (fst g) <= m) by apply Rmax_l.
  assert (M2 : norm2 (snd g) <= m * k). { assert (Q : norm2 (snd g) / k <= m) by apply Rmax_r. apply (Rmult_le_compat_r k) in Q; [|lra]. replace (norm2 (snd g) / k * k) with (norm2 (snd g)) in Q by (field; lra). exact Q. }
  replace ((1 + k * k) / ((1 + k) * (1 + k)) * ((1 + k) * m)) with ((m + k * (m * k)) / (1 + k)) by (field; lra).
  apply Rmult_le_compat_r; [left; apply Rinv_0_lt_compat; lra|]. nra.
Qed.
Lemma ppow_mono x y e : 0 <= x <= y -> 0 <= e -> ppow x e <= ppow y e.
Proof.
  intros [Hx Hy] He. destruct Hx as [Hx|<-]; [|rewrite ppow_0; apply ppow_nonneg]. rewrite !ppow_pos by lra. apply Rle_Rpower_l; lra.
Qed.
Lemma moment_ratio q c (f h : vec * vec -> R) grads : 0 <= q -> 0 < c -> (forall g, 0 <= f g) -> (forall g, 0 <= h g) -> (forall g, f g <= c * h g) ->
  moment q (map (fun g => [f g]) grads) <= Rpower c q * moment q (map (fun g => [h g]) grads).
Proof.
  intros Hq Hc Hf Hh H. unfold moment. rewrite !map_map, <- rmean_map_scal. apply rmean_map_le. intros g _. rewrite !norm2_one by auto.
  apply Rle_trans with (ppow (c * h g) q); [apply ppow_mono; [split; [apply Hf|apply H]|exact Hq]|]. rewrite ppow_mult, (ppow_pos c) by (try apply Hh; lra). lra.
Qed.
Lemma best_mult_ratio p q rho c A B : 1 < p -> / p + / q = 1 -> 0 < c -> 0 < moment q A -> 0 < moment q B -> moment q A <= Rpower c q * moment q B -> best_mult p q rho A <= c * best_mult p q rho B.
Proof.
  intros Hp Hpq Hc HA HB H. destruct (conj_gt1 p q Hp Hpq) as [Hq _]. unfold best_mult.
  assert (Hr : 0 < Rpower rho p) by apply exp_pos. replace (c * (Rpower (moment q B / Rpower rho p) (/ q) / p)) with (c * Rpower (moment q B / Rpower rho p) (/ q) / p) by (unfold Rdiv; ring).
  apply Rmult_le_compat_r; [left; apply Rinv_0_lt_compat; lra|].
  replace c with (Rpower (Rpower c q) (/ q)) at 1 by (rewrite Rpower_mult, Rinv_r, Rpower_1; [reflexivity|exact Hc|lra]).
  rewrite Rpower_mult_distr by (try apply exp_pos; apply Rdiv_lt_0_compat; assumption).
  apply Rle_Rpower_l; [left; apply Rinv_0_lt_compat; lra|]. split; [apply Rdiv_lt_0_compat; assumption|].
  unfold Rdiv. rewrite <- Rmult_assoc. apply Rmult_le_compat_r; [left; apply Rinv_0_lt_compat; exact Hr|exact H].
Qed.
