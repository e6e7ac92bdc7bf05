(* C116: the multiplier that training of a labelled problem starts from, and the one that minimises the linearised dual problem. *)
From Coq Require Import Reals List Lra Lia Psatz.
From Verif Require Import PyBase RList XReal Tensor Costs_Model Costs_Proofs InitGuess_Model InitGuess_Spec InitGuess_Proofs InitLabel_Spec InitLabel_Proofs
  Estim_Model EstDual_Model Wrap_Model Loss_Model Grads_Model Gradient Props_Grads Props_Estim.
Import ListNotations.
Local Open Scope R_scope.

(* The best multiplier for the labelled cost of Euclidean norms: unique, and given by the dual norm (1 + k) max(|g|, |gl| / k). *)
Theorem C116_best k p rho grads : 0 < k -> 1 < p -> 0 < rho -> Exists nonzero_pair grads ->
  exists best v, 0 < best /\ lin_dual_labelled (label_dist k) p rho grads best v /\
    (forall l u, 0 <= l -> l <> best -> lin_dual_labelled (label_dist k) p rho grads l u -> v < u) /\
    best = Rpower (rmean (map (fun g => ppow ((1 + k) * Rmax (norm2 (fst g)) (norm2 (snd g) / k)) (p / (p - 1))) grads) / Rpower rho p) ((p - 1) / p) / p.
Proof.
  intros K Hp Hr Hex. set (q := p / (p - 1)). assert (Hpq : / p + / q = 1) by (unfold q; field; lra).
  set (ds := map (fun g => [dual_size k g]) grads). assert (Ex : Exists nonzero ds) by (apply exists_sizes; [intros; apply dual_pos; assumption|exact Hex]).
  pose proof (moment_pos q ds Ex) as HA. destruct (best_value p q rho ds Hp Hpq HA) as (Hb & H1 & _).
  exists (best_mult p q rho ds), (p * best_mult p q rho ds * Rpower rho p). split; [exact Hb|]. split; [apply dual_reduces; [exact K|lra|exact H1]|]. split.
  - intros l u Hl Hn Hv. apply dual_reduces in Hv; [|exact K|exact Hl]. destruct Hl as [Hl|Hl].
    + exact (best_strict p q rho ds l u Hp Hpq HA Hl Hn Hv).
    + exfalso. subst l. exact (zero_mult_infinite p rho ds u Ex Hv).
  - unfold best_mult, moment, ds. rewrite map_map. replace (/ q) with ((p - 1) / p) by (unfold q; field; lra). do 4 f_equal. apply map_ext. intros g. rewrite norm2_one by (apply dual_size_nonneg; exact K). reflexivity.
Qed.
Print Assumptions C116_best.

(* The code takes the cost of the gradients for their dual norm: its multiplier is always smaller, by the factor (1 + k^2) / (1 + k)^2 at
   least, and its value is not the least one. *)
Theorem C116_too_small k p rho lam grads : 0 < k -> 1 < p -> 0 < rho -> Exists nonzero_pair grads ->
  exists norms guess best v, grads_norms_labelled (PFin 2) p (KFin k) grads = Ok norms /\ initial_guess (Fin rho) (Fin lam) true p norms = Ok (Fin guess) /\
    lin_dual_labelled (label_dist k) p rho grads best v /\ (forall l u, 0 <= l -> l <> best -> lin_dual_labelled (label_dist k) p rho grads l u -> v < u) /\
    0 < guess /\ guess <= (1 + k * k) / ((1 + k) * (1 + k)) * best /\ guess < best /\
    exists u, lin_dual_labelled (label_dist k) p rho grads guess u /\ v < u.
Proof.
  intros K Hp Hr Hex. set (q := p / (p - 1)). assert (Hpq : / p + / q = 1) by (unfold q; field; lra). destruct (conj_gt1 p q Hp Hpq) as [Hq _].
  destruct (C116_best k p rho grads K Hp Hr Hex) as (best & v & Hb & H1 & H2 & E).
  set (ds := map (fun g => [dual_size k g]) grads). assert (Ex : Exists nonzero ds) by (apply exists_sizes; [intros; apply dual_pos; assumption|exact Hex]).
  set (cs := map (fun g => [code_size k g]) grads). assert (Exc : Exists nonzero cs) by (apply exists_sizes; [intros; apply code_pos; assumption|exact Hex]).
  assert (E' : best = best_mult p q rho ds).
  { rewrite E. unfold best_mult, moment, ds. rewrite map_map. replace (/ q) with ((p - 1) / p) by (unfold q; field; lra). do 4 f_equal. apply map_ext. intros g. rewrite norm2_one by (apply dual_size_nonneg; exact K). reflexivity. }
  set (c := (1 + k * k) / ((1 + k) * (1 + k))). assert (Hc : 0 < c) by (apply Rdiv_lt_0_compat; nra). assert (Hc1 : c < 1).
  { unfold c. apply (Rmult_lt_reg_r ((1 + k) * (1 + k))); [nra|]. replace ((1 + k * k) / ((1 + k) * (1 + k)) * ((1 + k) * (1 + k))) with (1 + k * k) by (field; lra). nra. }
  destruct (best_value p q rho cs Hp Hpq (moment_pos q cs Exc)) as (Hg & _ & _).
  assert (L : best_mult p q rho cs <= c * best).
  { rewrite E'. apply best_mult_ratio; auto; try (apply moment_pos; assumption). apply moment_ratio; try lra; intros; [apply code_size_nonneg; exact K|apply dual_size_nonneg; exact K|apply size_ratio; exact K]. }
  assert (Lt : best_mult p q rho cs < best) by nra.
  exists (grads_norms (PFin 2) p cs), (best_mult p q rho cs), best, v. split; [apply code_norms; lra|]. split; [apply guess_value; assumption|]. split; [exact H1|]. split; [exact H2|]. split; [exact Hg|]. split; [exact L|]. split; [exact Lt|].
  assert (Q : exists u, lin_dual_labelled (label_dist k) p rho grads (best_mult p q rho cs) u).
  { eexists. apply dual_reduces; [exact K|lra|]. apply (lin_dual_value p q rho ds (best_mult p q rho cs)); auto. }
  destruct Q as [u Hu]. exists u. split; [exact Hu|]. apply (H2 (best_mult p q rho cs)); [lra|lra|exact Hu].
Qed.
Print Assumptions C116_too_small.

(* LinearRegression: the initial multiplier and the best one, for every weight of the labels, radius and data set that is not fitted
   exactly. Their ratio does not depend on the data; when |w| >= 1 the initial multiplier is at least 1 + k times too small. *)
Theorem C116_linear D pf a X y d t wt b k lam : differentiates D -> lr_dispatch pf a X y = Ok (FTorch d t) -> widths (length wt) X -> length y = length X ->
  0 < k -> 0 < lr_rho a -> List.Exists (fun xv => dot wt (fst xv) + b <> snd xv) (List.combine X y) ->
  let rms := sqrt (rmean (map (fun xv => (dot wt (fst xv) + b - snd xv) ^ 2) (List.combine X y))) in
  let w := norm2 wt in
  exists gx gy norms guess best v,
    direction (w_value (lr_call wt b) (wrapped_of d [] [wt; [b]])) D (Tensor.batch [length X] (length wt) X) (Some (Tensor.batch [length X] 1 (map (fun v => [v]) y)))
      = Ok (map (map Fin) gx, Some (map (map Fin) gy)) /\
    grads_norms_labelled (PFin 2) 2 (KFin k) (List.combine gx gy) = Ok norms /\ initial_guess (Fin (lr_rho a)) (Fin lam) true 2 norms = Ok (Fin guess) /\
    lin_dual_labelled (label_dist k) 2 (lr_rho a) (List.combine gx gy) best v /\
    (forall l u, 0 <= l -> l <> best -> lin_dual_labelled (label_dist k) 2 (lr_rho a) (List.combine gx gy) l u -> v < u) /\
    guess = (w + k) / (1 + k) * rms / lr_rho a /\ best = (1 + k) * Rmax w (/ k) * rms / lr_rho a /\ (1 <= w -> (1 + k) * guess <= best).
Proof.
  intros HD H W E K Hr Hex rms w. pose proof (C114_linear D pf a X y d t wt b HD H W E) as G.
  set (res := map (fun xv => dot wt (fst xv) + b - snd xv) (List.combine X y)).
  set (gs := map (fun r => (vscal (2 * r) wt, [2 * - r])) res : list (vec * vec)).
  assert (Eg : List.combine (map2 (fun x v => vscal (2 * (dot wt x + b - v)) wt) X y) (map2 (fun x v => [2 * (v - (dot wt x + b))]) X y) = gs).
  { unfold gs, res. clear. revert y. induction X as [|x X IH]; intros [|v y]; try reflexivity. cbn [map2 List.combine map fst snd]. rewrite IH. do 3 f_equal. ring. }
  assert (Nz : Exists nonzero_pair gs).
  { unfold gs, res. clear - Hex. induction Hex as [xv l Hx|xv l Hx IH]; cbn; [apply Exists_cons_hd|apply Exists_cons_tl; exact IH]. right. exists (2 * - (dot wt (fst xv) + b - snd xv)). split; [left; reflexivity|]. lra. }
  assert (Hw : 0 <= w) by apply norm2_nonneg.
  assert (Sc : forall r, code_size k (vscal (2 * r) wt, [2 * - r]) = 2 * ((w + k) / (1 + k)) * Rabs r).
  { intros r. unfold code_size, label_dist. cbn [fst snd]. rewrite norm2_vscal. fold w. replace (norm2 [2 * - r]) with (Rabs (2 * - r)) by (unfold norm2, sqnorm, dot; cbn; rewrite Rplus_0_r; symmetry; apply sqrt_Rsqr_abs).
    rewrite !Rabs_mult, Rabs_Ropp, (Rabs_right 2) by lra. field. lra. }
  assert (Sd : forall r, dual_size k (vscal (2 * r) wt, [2 * - r]) = 2 * ((1 + k) * Rmax w (/ k)) * Rabs r).
  { intros r. unfold dual_size. cbn [fst snd]. rewrite norm2_vscal. fold w. replace (norm2 [2 * - r]) with (Rabs (2 * - r)) by (unfold norm2, sqnorm, dot; cbn; rewrite Rplus_0_r; symmetry; apply sqrt_Rsqr_abs).
    rewrite !Rabs_mult, Rabs_Ropp, (Rabs_right 2) by lra. replace (2 * Rabs r / k) with (2 * Rabs r * / k) by reflexivity. rewrite (RmaxRmult w (/ k) (2 * Rabs r)) by (pose proof (Rabs_pos r); lra). ring. }
  assert (Best : forall f c, 0 < c -> (forall r, f (vscal (2 * r) wt, [2 * - r]) = 2 * c * Rabs r) -> 0 < rmean (map (fun r => r ^ 2) res) ->
    best_mult 2 2 (lr_rho a) (map (fun g : vec * vec => [f g]) gs) = c * rms / lr_rho a).
  { intros f c Hc Hf Hm. unfold best_mult, moment, gs. rewrite !map_map.
    rewrite (map_ext _ (fun r => (2 * c) * (2 * c) * r ^ 2)).
    2:{ intros r. pose proof (Rabs_pos r). rewrite norm2_one by (rewrite Hf; nra). rewrite ppow_2 by (rewrite Hf; nra). rewrite Hf. rewrite <- (pow2_abs r). ring. }
    rewrite rmean_map_scal.
    assert (P2 : Rpower (lr_rho a) 2 = lr_rho a * lr_rho a). { replace 2 with (INR 2) by (simpl; lra). rewrite Rpower_pow by exact Hr. ring. }
    rewrite P2, Rpower_sqrt by (apply Rdiv_lt_0_compat; [apply Rmult_lt_0_compat; [nra|exact Hm]|nra]).
    assert (R0 : 0 <= rms) by apply sqrt_pos. assert (R2 : rmean (map (fun r => r ^ 2) res) = rms * rms). { unfold rms. rewrite sqrt_sqrt; [unfold res; rewrite map_map; reflexivity|]. unfold res in Hm. rewrite map_map in Hm. lra. }
    rewrite R2. replace (2 * c * (2 * c) * (rms * rms) / (lr_rho a * lr_rho a)) with (Rsqr (2 * c * rms / lr_rho a)) by (unfold Rsqr; field; lra).
    rewrite sqrt_Rsqr; [field; lra|]. apply Rmult_le_pos; [nra|left; apply Rinv_0_lt_compat; exact Hr]. }
  assert (Hm : 0 < rmean (map (fun r => r ^ 2) res)).
  { pose proof (moment_pos 2 (map (fun g => [code_size k g]) gs) ltac:(apply exists_sizes; [intros; apply code_pos; assumption|exact Nz])) as M. unfold moment, gs in M. rewrite !map_map in M.
    rewrite (map_ext _ (fun r => (2 * ((w + k) / (1 + k))) * (2 * ((w + k) / (1 + k))) * r ^ 2)) in M.
    2:{ intros r. rewrite norm2_one, ppow_2 by (try apply code_size_nonneg; exact K). rewrite Sc, <- (pow2_abs r). ring. }
    rewrite rmean_map_scal in M. assert (C0 : 0 < 2 * ((w + k) / (1 + k))) by (apply Rmult_lt_0_compat; [lra|apply Rdiv_lt_0_compat; lra]). apply (Rmult_lt_reg_l (2 * ((w + k) / (1 + k)) * (2 * ((w + k) / (1 + k))))); [nra|]. lra. }
  assert (Mp : 0 < Rmax w (/ k)) by (apply Rlt_le_trans with (/ k); [apply Rinv_0_lt_compat; exact K|apply Rmax_r]).
  assert (Hpq : / 2 + / 2 = 1) by lra.
  assert (Exc : Exists nonzero (map (fun g => [code_size k g]) gs)) by (apply exists_sizes; [intros; apply code_pos; assumption|exact Nz]).
  assert (Exd : Exists nonzero (map (fun g => [dual_size k g]) gs)) by (apply exists_sizes; [intros; apply dual_pos; assumption|exact Nz]).
  pose proof (moment_pos 2 _ Exd) as HA. destruct (best_value 2 2 (lr_rho a) (map (fun g => [dual_size k g]) gs) ltac:(lra) Hpq HA) as (Hb & H1 & _).
  eexists _, _, (grads_norms (PFin 2) 2 (map (fun g => [code_size k g]) gs)), (best_mult 2 2 (lr_rho a) (map (fun g => [code_size k g]) gs)), (best_mult 2 2 (lr_rho a) (map (fun g => [dual_size k g]) gs)), _.
  split; [exact G|]. unfold vec in *. rewrite Eg. split; [apply code_norms; lra|]. split; [apply guess_value; auto; lra|].
  split; [apply dual_reduces; [exact K|lra|exact H1]|]. split.
  - intros l u Hl Hn Hv. apply dual_reduces in Hv; [|exact K|exact Hl]. destruct Hl as [Hl|Hl].
    + exact (best_strict 2 2 (lr_rho a) _ l u ltac:(lra) Hpq HA Hl Hn Hv).
    + exfalso. subst l. exact (zero_mult_infinite 2 (lr_rho a) _ u Exd Hv).
  - pose proof (Best (code_size k) ((w + k) / (1 + k)) ltac:(apply Rdiv_lt_0_compat; lra) Sc Hm) as B1. pose proof (Best (dual_size k) ((1 + k) * Rmax w (/ k)) ltac:(nra) Sd Hm) as B2.
    split; [exact B1|]. split; [exact B2|]. intros Hw1. refine (eq_ind_r (fun z => (1 + k) * z <= _) _ B1). refine (eq_ind_r (fun z => _ <= z) _ B2).
    assert (R0 : 0 <= rms) by apply sqrt_pos. assert (M1 : w <= Rmax w (/ k)) by apply Rmax_l.
    replace ((1 + k) * ((w + k) / (1 + k) * rms / lr_rho a)) with ((w + k) * (rms / lr_rho a)) by (field; lra). replace ((1 + k) * Rmax w (/ k) * rms / lr_rho a) with ((1 + k) * Rmax w (/ k) * (rms / lr_rho a)) by (unfold Rdiv; ring).
    apply Rmult_le_compat_r; [apply Rmult_le_pos; [exact R0|left; apply Rinv_0_lt_compat; exact Hr]|]. nra.
Qed.
Print Assumptions C116_linear.

(* With weight 0 (infinite weight) the labels (features) move for free: as soon as one of their gradients is not zero no multiplier gives
   a finite linearised dual, but the initial one is finite. *)
Theorem C116_free_moves p rho lam grads : 1 < p -> 0 < rho -> Exists (fun g => nonzero (fst g)) grads -> Exists (fun g => nonzero (snd g)) grads ->
  (forall l v, ~ lin_dual_labelled (fun d _ => norm2 d) p rho grads l v) /\
  (exists norms guess, grads_norms_labelled (PFin 2) p (KFin 0) grads = Ok norms /\ initial_guess (Fin rho) (Fin lam) true p norms = Ok (Fin guess)) /\
  (forall l v, ~ lin_dual_labelled (fun _ dl => norm2 dl) p rho grads l v) /\
  (exists norms guess, grads_norms_labelled (PFin 2) p KInf grads = Ok norms /\ initial_guess (Fin rho) (Fin lam) true p norms = Ok (Fin guess)).
Proof.
  intros Hp Hr Hx Hu. set (q := p / (p - 1)). assert (Hpq : / p + / q = 1) by (unfold q; field; lra).
  assert (N0 : forall (f : vec * vec -> vec), Exists (fun g => nonzero (f g)) grads -> Exists nonzero (map f grads)).
  { intros f H. clear Hx Hu. induction H; cbn; [apply Exists_cons_hd|apply Exists_cons_tl]; assumption. }
  assert (Big : forall (g : vec) s, nonzero g -> exists d, length d = length g /\ dot g d = Rabs s + 1).
  { intros g s Hg. apply nonzero_norm in Hg. assert (Q : 0 < sqnorm g) by (rewrite <- norm2_sq; nra). exists (vscal ((Rabs s + 1) / sqnorm g) g). split; [apply vscal_length|].
    rewrite dot_vscal_r. fold (sqnorm g). field. lra. }
  assert (Free : forall N grads, Exists (fun g => forall s, exists d dl, length d = length (fst g) /\ length dl = length (snd g) /\ N d dl = 0 /\ dot (fst g) d + dot (snd g) dl = Rabs s + 1) grads ->
    forall l v, ~ lin_dual_labelled N p rho grads l v).
  { intros N gs H l v [gains [HF _]]. revert gains HF. induction H as [g t Hg|g t H IH]; intros gains HF; inversion HF as [|? s ? ss Hgs Hrest]; subst; [|exact (IH ss Hrest)].
    destruct Hgs as [Ub _]. destruct (Hg s) as (d & dl & L1 & L2 & Z & V). specialize (Ub (Rabs s + 1)). pose proof (Rle_abs s). assert (Rabs s + 1 <= s); [|lra]. apply Ub.
    exists d, dl. split; [exact L1|]. split; [exact L2|]. rewrite Z, ppow_0, Rmult_0_r, Rminus_0_r. symmetry. exact V. }
  split; [|split; [|split]].
  - apply Free. clear - Hu Big. induction Hu as [g t Hg|g t H IH]; [apply Exists_cons_hd|apply Exists_cons_tl; exact IH]. intros s. destruct (Big (snd g) s Hg) as (dl & L & V).
    exists (vscal 0 (fst g)), dl. split; [apply vscal_length|]. split; [exact L|]. split; [apply norm2_scal0|]. rewrite dot_vscal_r, Rmult_0_l, ?Rplus_0_l, ?Rplus_0_r. exact V.
  - exists (grads_norms (PFin 2) p (map fst grads)), (best_mult p q rho (map fst grads)). split; [|apply guess_value; auto].
    unfold grads_norms. rewrite map_map. clear. induction grads as [|[g h] r IH]; [reflexivity|]. cbn [grads_norms_labelled]. unfold nlc_value. unfold Reqb at 1. destruct (Req_EM_T 0 0); [|lra]. cbn [bind]. rewrite IH. reflexivity.
  - apply Free. clear - Hx Big. induction Hx as [g t Hg|g t H IH]; [apply Exists_cons_hd|apply Exists_cons_tl; exact IH]. intros s. destruct (Big (fst g) s Hg) as (dl & L & V).
    exists dl, (vscal 0 (snd g)). split; [exact L|]. split; [apply vscal_length|]. split; [apply norm2_scal0|]. rewrite dot_vscal_r, Rmult_0_l, ?Rplus_0_l, ?Rplus_0_r. exact V.
  - exists (grads_norms (PFin 2) p (map snd grads)), (best_mult p q rho (map snd grads)). split; [|apply guess_value; auto].
    unfold grads_norms. rewrite map_map. clear. induction grads as [|[g h] r IH]; [reflexivity|]. cbn [grads_norms_labelled]. unfold nlc_value. cbn [bind]. rewrite IH. reflexivity.
Qed.
Print Assumptions C116_free_moves.

(* One sample whose feature and label gradients are both 1, equal weights, radius 1, squared cost: the best multiplier is 1, the code starts from 1/2. *)
Theorem C116_initial_multiplier_refuted : exists k rho grads norms guess best v,
  grads_norms_labelled (PFin 2) 2 (KFin k) grads = Ok norms /\ initial_guess (Fin rho) (Fin 1) true 2 norms = Ok (Fin guess) /\
  lin_dual_labelled (label_dist k) 2 rho grads best v /\ (forall l u, 0 <= l -> l <> best -> lin_dual_labelled (label_dist k) 2 rho grads l u -> v < u) /\
  guess < best.
Proof.
  assert (N : Exists nonzero_pair [([1], [1])]) by (apply Exists_cons_hd; left; exists 1; split; [left; reflexivity|lra]).
  destruct (C116_too_small 1 2 1 1 _ ltac:(lra) ltac:(lra) ltac:(lra) N) as (norms & guess & best & v & E1 & E2 & E3 & E4 & _ & _ & Lt & _).
  exists 1, 1, [([1], [1])], norms, guess, best, v. auto.
Qed.
Print Assumptions C116_initial_multiplier_refuted.

(* hypotheses of C116_best, C116_too_small and C116_free_moves *)
Example C116_case : 0 < 3 /\ 1 < 2 /\ 0 < / 2 /\ Exists nonzero_pair [([0; 0], [0]); ([1; -2], [4])] /\
  Exists (fun g : vec * vec => nonzero (fst g)) [([0; 0], [0]); ([1; -2], [4])] /\ Exists (fun g : vec * vec => nonzero (snd g)) [([0; 0], [0]); ([1; -2], [4])].
Proof.
  split; [lra|]. split; [lra|]. split; [lra|]. split; [|split]; apply Exists_cons_tl, Exists_cons_hd.
  - left. exists 1. split; [left; reflexivity|lra].
  - exists 1. split; [left; reflexivity|lra].
  - exists 4. split; [left; reflexivity|lra].
Qed.
(* the default LinearRegression on two samples, with weight 2 and bias 1: the hypotheses of C116_linear besides the operator, for which see C114_operator *)
Example C116_linear_case : exists d t, lr_dispatch read lr_defaults [[1]; [3]] [2; 5] = Ok (FTorch d t) /\ widths (length [2]) [[1]; [3]] /\ 0 < 100000000 /\ 0 < lr_rho lr_defaults /\
  List.Exists (fun xv => dot [2] (fst xv) + 1 <> snd xv) (List.combine [[1]; [3]] [2; 5]).
Proof.
  destruct (C57_weber_linear_logistic_portfolio read [[1]; [3]] eq_refl eq_refl) as (_ & E & _). destruct (E [2; 5]) as (d & Ed & _).
  eexists d, _. split; [exact Ed|]. split; [repeat constructor|]. split; [lra|]. split; [simpl; lra|]. apply Exists_cons_hd. unfold dot. simpl. lra.
Qed.
