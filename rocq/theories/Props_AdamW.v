(* C134: how far AdamW, the optimiser of the post-sampled losses when adapt is falsy, moves a coordinate (in particular the dual
   multiplier). Gradients are arbitrary numbers, one per step. *)
From Coq Require Import Reals List Bool Lra Lia Arith.
From Verif Require Import PyBase RList XReal Dual_Model Oracle_Model AdamW_Proofs.
Import ListNotations.
Local Open Scope R_scope.

(* positions after 0, 1, ..., n steps: specification of a trajectory, as a relation between states *)
Inductive trajectory (lr : R) : adam -> R -> list R -> adam -> R -> Prop :=
| rest s x : trajectory lr s x [] s x
| move s x g s1 x1 gs s2 x2 : adamw_step lr s x g = (s1, x1) -> trajectory lr s1 x1 gs s2 x2 -> trajectory lr s x (g :: gs) s2 x2.
Lemma trajectory_run lr gs : forall s x s2 x2, trajectory lr s x gs s2 x2 -> adamw_run lr s x gs = (s2, x2).
Proof.
  induction gs as [|g gs IH]; intros s x s2 x2 H; inversion H; subst; [reflexivity|]. unfold adamw_run. cbn [fold_left fst snd].
  match goal with E : adamw_step _ _ _ _ = _ |- _ => rewrite E end. apply IH. assumption.
Qed.
Lemma run_trajectory lr gs : forall s x, trajectory lr s x gs (fst (adamw_run lr s x gs)) (snd (adamw_run lr s x gs)).
Proof.
  induction gs as [|g gs IH]; intros s x; [constructor|]. destruct (adamw_step lr s x g) as [s1 x1] eqn:E. assert (R : adamw_run lr s x (g :: gs) = adamw_run lr s1 x1 gs) by (unfold adamw_run; cbn [fold_left fst snd]; rewrite E; reflexivity).
  rewrite R. eapply move; [exact E|apply IH].
Qed.

Lemma start_value rho eps power red imp d : 0 < rho -> dual_init (Fin rho) eps power red imp = Ok d -> d_lam d = / 1000 / rho.
Proof.
  intros Hr D. unfold dual_init in D. destruct (xlt (Fin 0) (Fin rho)) eqn:E; cbn in *; [|unfold xlt in E; cbn in E; apply not_true_iff_false in E; rewrite Rltb_true in E; contradiction].
  rewrite E in D. injection D as <-. reflexivity.
Qed.

(* No step of a fresh AdamW moves a coordinate by more than eight learning rates, whatever the gradients were and however large the
   last one is. *)
Theorem C134_every_step : forall lr x0 gs s x g, 0 <= lr -> trajectory lr adam0 x0 gs s x -> Rabs (snd (adamw_step lr s x g) - x) <= 8 * lr.
Proof.
  intros lr x0 gs s x g Hl T. apply trajectory_run in T. pose proof (moments_run lr x0 gs) as M. rewrite T in M. exact (step_bounded lr s x g _ Hl M).
Qed.
Print Assumptions C134_every_step.

(* Hence the multiplier of a new robust loss, which starts at 1e-3/rho, cannot be further than 8 n learning rates from there after n
   steps: a larger multiplier is out of reach whatever the data. *)
Theorem C134_reach : forall rho eps power red imp d lr gs s x, 0 < rho -> dual_init (Fin rho) eps power red imp = Ok d ->
  trajectory (adamw_lr lr) adam0 (d_lam d) gs s x -> (forall r, lr = Some r -> 0 <= r) ->
  Rabs (x - / 1000 / rho) <= 8 * match lr with Some r => r | None => 5 / 100 end * INR (length gs).
Proof.
  intros rho eps power red imp d lr gs s x Hr D T P. pose proof (start_value rho eps power red imp d Hr D) as L.
  apply trajectory_run in T. rewrite <- L. replace x with (snd (adamw_run (adamw_lr lr) adam0 (d_lam d) gs)) by (rewrite T; reflexivity).
  replace (match lr with Some r => r | None => 5 / 100 end) with (adamw_lr lr) by (destruct lr; cbn; lra). apply run_bounded.
  destruct lr as [r|]; cbn; [apply P; reflexivity|lra].
Qed.
Print Assumptions C134_reach.

(* Under a constant gradient every step moves by the same amount, the learning rate times the sign of the gradient (up to eps): the
   size of the gradient does not matter. *)
Theorem C134_constant_gradient : forall lr x0 g n s x, trajectory lr adam0 x0 (repeat g n) s x -> x = x0 - INR n * (lr * (g / (Rabs g + / 100000000))).
Proof. intros lr x0 g n s x T. apply trajectory_run in T. rewrite <- const_step. rewrite T. reflexivity. Qed.
Print Assumptions C134_constant_gradient.

(* A coordinate whose gradient vanishes goes on moving: after one non-zero gradient, a step with a zero gradient still moves in the
   same direction by more than 0.69 times the learning rate, as soon as the gradient was at least 1e-6. *)
Theorem C134_momentum : forall lr x0 g s1 x1 s2 x2, 0 < lr -> trajectory lr adam0 x0 [g] s1 x1 -> trajectory lr adam0 x0 [g; 0] s2 x2 ->
  x2 - x1 = - (lr * (99 / 199) * (g / (Rabs g / sqrt (1999 / 1000) + / 100000000))) /\
  (/ 1000000 <= g -> x2 < x1 - 69 / 100 * lr) /\ (g <= - / 1000000 -> x1 + 69 / 100 * lr < x2).
Proof.
  intros lr x0 g s1 x1 s2 x2 Hl T1 T2. apply trajectory_run in T1. apply trajectory_run in T2. pose proof (second_step lr x0 g) as E. rewrite T1, T2 in E. cbn [snd] in E.
  split; [exact E|]. assert (Q : 141 / 100 < sqrt (1999 / 1000)).
  { apply Rsqr_incrst_0; [|lra|apply sqrt_pos]. rewrite Rsqr_sqrt by lra. unfold Rsqr. lra. }
  assert (K : forall a, / 1000000 <= a -> 69 / 100 < 99 / 199 * (a / (a / sqrt (1999 / 1000) + / 100000000))).
  { intros a Ha. assert (Hq : a / sqrt (1999 / 1000) <= a * (100 / 141)).
    { unfold Rdiv at 1. apply Rmult_le_compat_l; [lra|]. replace (100 / 141) with (/ (141 / 100)) by lra. apply Rinv_le_contravar; lra. }
    assert (Hp : 0 < a / sqrt (1999 / 1000)) by (apply Rdiv_lt_0_compat; lra).
    set (D := a / sqrt (1999 / 1000) + / 100000000). assert (D0 : 0 < D) by (unfold D; lra). apply (Rmult_lt_reg_r D); [exact D0|].
    replace (99 / 199 * (a / D) * D) with (99 / 199 * a) by (field; lra). unfold D. lra. }
  split; intros Hg.
  - rewrite Rabs_right in E by lra. specialize (K g Hg). nra.
  - rewrite Rabs_left in E by lra. specialize (K (- g)). assert (M : 69 / 100 < 99 / 199 * (- g / (- g / sqrt (1999 / 1000) + / 100000000))) by (apply K; lra).
    unfold Rdiv at 3 in M. unfold Rdiv at 3 in E. set (i := / (- g / sqrt (1999 / 1000) + / 100000000)) in *. nra.
Qed.
Print Assumptions C134_momentum.

(* non-vacuity *)
Example C134_every_step_case : exists s x, trajectory (/ 20) adam0 1 [1; -3; 1000] s x /\ Rabs (snd (adamw_step (/ 20) s x (-1000)) - x) <= 8 / 20.
Proof.
  do 2 eexists. split; [apply run_trajectory|]. eapply Rle_trans; [apply (C134_every_step (/ 20) 1 [1; -3; 1000]); [lra|apply run_trajectory]|lra].
Qed.
(* the default rate and a hundred iterations: the multiplier of a problem of radius 1 stays below 41 *)
Example C134_reach_case : exists d s x, dual_init (Fin 1) 1 2 None false = Ok d /\ trajectory (adamw_lr None) adam0 (d_lam d) (repeat (-1) 100) s x /\ x <= 41 /\ 4 < x.
Proof.
  destruct (dual_init (Fin 1) 1 2 None false) as [d|] eqn:D; [|discriminate]. exists d. pose proof (start_value 1 1 2 None false d ltac:(lra) D) as L.
  eexists. eexists. split; [reflexivity|]. split; [apply run_trajectory|]. assert (N : INR 100 = 100) by (cbn; lra). split.
  - pose proof (C134_reach 1 1 2 None false d None (repeat (-1) 100) _ _ ltac:(lra) D (run_trajectory _ _ _ _) ltac:(discriminate)) as B.
    rewrite repeat_length, N in B. match type of B with Rabs ?a <= _ => pose proof (Rle_abs a) end. lra.
  - match goal with |- _ < snd ?r => rewrite (C134_constant_gradient (adamw_lr None) (d_lam d) (-1) 100 (fst r) (snd r) (run_trajectory _ _ _ _)) end.
    rewrite N, L. unfold adamw_lr. rewrite Rabs_left by lra. replace (-1 / (- -1 + / 100000000)) with (- (100000000 / 100000001)) by (field; lra). lra.
Qed.
Example C134_constant_gradient_case : exists s x, trajectory (/ 20) adam0 1 (repeat (1 / 100) 50) s x /\ x < - (149 / 100) /\ - (150 / 100) < x.
Proof.
  do 2 eexists. split; [apply run_trajectory|]. match goal with |- snd ?r < _ /\ _ => rewrite (C134_constant_gradient (/ 20) 1 (1 / 100) 50 (fst r) (snd r) (run_trajectory _ _ _ _)) end.
  replace (INR 50) with 50 by (cbn; lra). rewrite Rabs_right by lra. replace (1 / 100 / (1 / 100 + / 100000000)) with (1000000 / 1000001) by (field; lra). lra.
Qed.
Example C134_momentum_case : exists s1 x1 s2 x2, trajectory (/ 20) adam0 1 [2] s1 x1 /\ trajectory (/ 20) adam0 1 [2; 0] s2 x2 /\ x2 < x1 - 34 / 1000.
Proof.
  do 4 eexists. split; [apply run_trajectory|]. split; [apply run_trajectory|].
  match goal with |- snd ?b < snd ?a - _ => pose proof (C134_momentum (/ 20) 1 2 (fst a) (snd a) (fst b) (snd b) ltac:(lra) (run_trajectory _ _ _ _) (run_trajectory _ _ _ _)) as (_ & H & _) end.
  specialize (H ltac:(lra)). lra.
Qed.
