(* C131: the learning rate given by the user is the one the optimiser steps with, and adapt chooses the optimiser. *)
From Coq Require Import Reals List Bool ZArith String Arith Lia Lra.
From Verif Require Import PyBase RList XReal CostDecoder_Model OptCond_Model Samplers_Model Wrap_Model Oracle_Model Solver_Model Estim_Model Estim_Proofs Install_Model Props_Estim.
Import ListNotations.
Local Open Scope R_scope.

(* a fit of one of the five estimators, given this learning rate, trained the robust loss d *)
Definition fits_with (pf : string -> option xr) (lr : option R) (d : dual_args) : Prop :=
  (exists a X t, nv_dispatch pf a X = Ok (FTorch d t) /\ nv_lr a = lr) \/ (exists a X t, pf_dispatch pf a X = Ok (FTorch d t) /\ pf_lr a = lr) \/
  (exists a X y t, wb_dispatch pf a X y = Ok (FTorch d t) /\ wb_lr a = lr) \/ (exists a X y t, lr_dispatch pf a X y = Ok (FTorch d t) /\ lr_lr a = lr) \/
  (exists a X y t, lg_dispatch pf a X y = Ok (FTorch d t) /\ lg_lr a = lr).
Lemma fits_passed pf lr d : fits_with pf lr d -> a_lr d = lr /\ a_adapt d = match lr with None => Some "prodigy"%string | Some _ => None end.
Proof.
  intros [(a & X & t & H & E)|[(a & X & t & H & E)|[(a & X & y & t & H & E)|[(a & X & y & t & H & E)|(a & X & y & t & H & E)]]]]; destruct (C80_passed_on_partial pf X d t) as (A & B & C & D & F); subst lr.
  - apply A in H. unfold adapt_of in H. tauto.
  - apply B in H. unfold adapt_of in H. tauto.
  - apply C in H. unfold adapt_of in H. tauto.
  - apply D in H. unfold adapt_of in H. tauto.
  - apply F in H. unfold adapt_of in H. tauto.
Qed.

(* The estimators: a given rate is the rate of the optimiser; without one, Prodigy, or L-BFGS with rate 1 for pre-sampled losses. *)
Theorem C131_estimators :
  forall A (params : list A) lam pf lr d, fits_with pf lr d -> params <> [] ->
    (forall r, lr = Some r -> 0 <= r -> install params lam d = Ok (if a_post d then IAdamW r else ILbfgs r)) /\
    (lr = None -> a_post d = false -> install params lam d = Ok (ILbfgs 1)) /\
    (lr = None -> a_post d = true -> exists c, install params lam d = Ok (IComposite c) /\ c_params c = params /\ c_lbd c = [lam] /\ c_schedulers c <> None).
Proof.
  intros A params lam pf lr d H N. apply fits_passed in H as [L D]. unfold install, post_install, pre_install. rewrite L, D. split; [|split].
  - intros r -> P. destruct (a_post d); [|reflexivity]. unfold adamw_lr. replace (Rltb r 0) with false by (symmetry; apply Rltb_false; lra). reflexivity.
  - intros -> ->. reflexivity.
  - intros -> ->. cbn. unfold composite_init. cbn. destruct params; [congruence|]. cbn. eexists. split; [reflexivity|]. cbn. repeat split. discriminate.
Qed.
Print Assumptions C131_estimators.

(* dualize_primal_loss called directly *)
Definition with_rate (u : user_args) (lr : option R) (adapt : option string) : user_args :=
  {| u_rho := u_rho u; u_xi := u_xi u; u_labels := u_labels u; u_post := u_post u; u_cost := u_cost u; u_n_samples := u_n_samples u; u_seed := u_seed u; u_reduction := u_reduction u; u_lr := lr;
     u_epsilon := u_epsilon u; u_sigma := u_sigma u; u_l2reg := u_l2reg u; u_adapt := adapt; u_n_iter := u_n_iter u; u_imp_samp := u_imp_samp u; u_reduces := u_reduces u |}.
Lemma dualize_rate pf u lr adapt d : dualize pf (with_rate u lr adapt) = Ok d ->
  a_lr d = lr /\ a_adapt d = adapt /\ a_post d = u_post u /\ forall lr' adapt', exists d', dualize pf (with_rate u lr' adapt') = Ok d' /\ a_lr d' = lr' /\ a_adapt d' = adapt' /\ a_post d' = a_post d /\ a_n_iter d' = a_n_iter d.
Proof.
  unfold dualize. cbn [with_rate u_rho u_xi u_labels u_post u_cost u_n_samples u_seed u_reduction u_lr u_epsilon u_sigma u_l2reg u_adapt u_n_iter u_imp_samp u_reduces].
  destruct (parse_code_torch _ _ _ _ _ _) as [pc|]; [|discriminate]. cbn [bind]. unfold expert_hyperparams. destruct (cost_from_parse_torch _ _ _) as [c|]; [|discriminate]. cbn [bind].
  destruct (match u_labels u with Some _ => _ | None => _ end) as [s|]; [|discriminate]. cbn [bind]. intros H. injection H as <-. cbn. repeat split. intros lr' adapt'. eexists. split; [reflexivity|]. cbn. auto.
Qed.

(* without adaptation: the rate given, or 1/20 for AdamW and 1 for L-BFGS; AdamW refuses negative rates *)
Theorem C131_plain :
  forall A (params : list A) lam pf u lr adapt d, dualize pf (with_rate u lr adapt) = Ok d -> adapt = None \/ adapt = Some ""%string ->
    let r := match lr with Some r => r | None => if u_post u then / 20 else 1 end in
    install params lam d = if u_post u then (if Rlt_dec r 0 then Raise ValueError else Ok (IAdamW r)) else Ok (ILbfgs r).
Proof.
  intros A params lam pf u lr adapt d H Ha. apply dualize_rate in H as (L & D & P & _). unfold install, post_install, pre_install. rewrite L, D, P.
  assert (K : match adapt with None => if Rltb (adamw_lr lr) 0 then Raise ValueError else Ok (@IAdamW A (adamw_lr lr)) | Some name => if String.eqb name "" then (if Rltb (adamw_lr lr) 0 then Raise ValueError else Ok (IAdamW (adamw_lr lr)))
    else if String.eqb name "mechanic" || String.eqb name "prodigy" then do c <- composite_init params lam (interpret_steps (a_n_iter d)) name; Ok (IComposite c) else Raise AssertionError end
    = if Rltb (adamw_lr lr) 0 then Raise ValueError else Ok (IAdamW (adamw_lr lr))) by (destruct Ha as [-> | ->]; reflexivity).
  destruct (u_post u); [|destruct lr; reflexivity]. refine (eq_trans K _). destruct lr as [r|]; unfold adamw_lr, Rltb; destruct (Rlt_dec _ 0); reflexivity.
Qed.
Print Assumptions C131_plain.

(* With an adaptive optimiser, and that is the default of dualize_primal_loss, the learning rate has no effect at all on post-sampled losses, ... *)
Theorem C131_rate_ignored :
  forall A (params : list A) lam pf u lr lr' name d, u_post u = true -> name = "mechanic"%string \/ name = "prodigy"%string -> dualize pf (with_rate u lr (Some name)) = Ok d ->
    exists d', dualize pf (with_rate u lr' (Some name)) = Ok d' /\ a_lr d' = lr' /\ install params lam d' = install params lam d.
Proof.
  intros A params lam pf u lr lr' name d P N H. pose proof (dualize_rate _ _ _ _ _ H) as (L & D & E & K). destruct (K lr' (Some name)) as (d' & H' & L' & D' & P' & I'). exists d'. split; [exact H'|]. split; [exact L'|].
  unfold install, post_install. rewrite P', E, P, D, D', I'. destruct N as [-> | ->]; reflexivity.
Qed.
Print Assumptions C131_rate_ignored.
(* ... so a user who asks for 1/10 trains as one who asks for nothing. *)
Definition plain_user : user_args := {| u_rho := 1; u_xi := [[1]]; u_labels := None; u_post := true; u_cost := Some "t-NC-2-2"%string; u_n_samples := 10; u_seed := Some 42%Z; u_reduction := None; u_lr := None;
  u_epsilon := Some 1; u_sigma := Some 1; u_l2reg := None; u_adapt := Some "prodigy"%string; u_n_iter := None; u_imp_samp := true; u_reduces := false |}.
Lemma plain_built post lr adapt : exists d, dualize read (with_rate {| u_rho := 1; u_xi := [[1]]; u_labels := None; u_post := post; u_cost := Some "t-NC-2-2"%string; u_n_samples := 10; u_seed := Some 42%Z; u_reduction := None; u_lr := None;
  u_epsilon := Some 1; u_sigma := Some 1; u_l2reg := None; u_adapt := Some "prodigy"%string; u_n_iter := None; u_imp_samp := true; u_reduces := false |} lr adapt) = Ok d.
Proof.
  assert (E : Rltb 0 1 = true) by (apply Rltb_true; lra).
  assert (E2 : Reqb 2 2 = true) by (apply Reqb_true; reflexivity). assert (E3 : Rleb 0 2 = true) by (apply Rleb_true; lra). assert (E4 : Reqb 2 1 = false) by (apply Reqb_false; lra). assert (E5 : Reqb 2 0 = false) by (apply Reqb_false; lra).
  eexists. unfold dualize. cbn -[nolabels_init Rpower]. rewrite ?E3. cbn -[nolabels_init Rpower]. unfold nolabels_init, sampler_data, loc_scale, family. cbn. rewrite ?E, ?E2, ?E3, ?E4, ?E5. cbn. rewrite ?E, ?E2, ?E3, ?E4. reflexivity.
Qed.
Theorem C131_rate_ignored_refuted :
  exists u d d', u_post u = true /\ u_adapt u = Some "prodigy"%string /\ dualize read (with_rate u (Some (1 / 10)) (u_adapt u)) = Ok d /\ dualize read (with_rate u None (u_adapt u)) = Ok d' /\
    forall A (params : list A) lam, install params lam d = install params lam d'.
Proof.
  destruct (plain_built true None (Some "prodigy"%string)) as [d' H']. destruct (plain_built true (Some (1 / 10)) (Some "prodigy"%string)) as [d H]. exists plain_user, d, d'.
  split; [reflexivity|]. split; [reflexivity|]. split; [exact H|]. split; [exact H'|]. intros A params lam.
  destruct (C131_rate_ignored A params lam read plain_user None (Some (1 / 10)) "prodigy" d' eq_refl (or_intror eq_refl) H') as (e & He & _ & Q).
  assert (X : e = d) by (refine (f_equal (fun r => match r with Ok x => x | Raise _ => d end) (eq_trans (eq_sym He) H))). subst e. exact Q.
Qed.
Print Assumptions C131_rate_ignored_refuted.

(* Names of adapt: post-sampled losses check them, pre-sampled ones accept and ignore any. *)
Theorem C131_adapt_names :
  forall A (params : list A) lam pf u lr name d, dualize pf (with_rate u lr (Some name)) = Ok d -> name <> ""%string -> name <> "mechanic"%string -> name <> "prodigy"%string ->
    (u_post u = true -> install params lam d = Raise AssertionError) /\ (u_post u = false -> install params lam d = Ok (ILbfgs (match lr with Some r => r | None => 1 end))).
Proof.
  intros A params lam pf u lr name d H N0 N1 N2. apply dualize_rate in H as (L & D & P & _). apply String.eqb_neq in N0, N1, N2. unfold install, post_install, pre_install. rewrite L, D, P. split; intros ->.
  - rewrite N0, N1, N2. reflexivity.
  - destruct lr; reflexivity.
Qed.
Print Assumptions C131_adapt_names.
Theorem C131_adapt_names_refuted :
  exists u name d, name <> "mechanic"%string /\ name <> "prodigy"%string /\ name <> ""%string /\ u_post u = false /\ dualize read (with_rate u None (Some name)) = Ok d /\ forall A (params : list A) lam, install params lam d = Ok (ILbfgs 1).
Proof.
  destruct (plain_built false None (Some "prodigi"%string)) as [d H]. eexists. exists "prodigi"%string, d. split; [discriminate|]. split; [discriminate|]. split; [discriminate|].
  split; [|split; [exact H|]]; [reflexivity|]. intros A params lam. refine (proj2 (C131_adapt_names A params lam read _ None "prodigi" d H _ _ _) eq_refl); discriminate.
Qed.
Print Assumptions C131_adapt_names_refuted.

(* The rate bounds the first move: of every coordinate for AdamW, of the sum over the coordinates for L-BFGS. *)
Theorem C131_first_move_adamw :
  forall r x g, 0 <= r -> let x' := snd (adamw_step r adam0 x g) in x' = x - r * (g / (Rabs g + / 100000000)) /\ Rabs (x' - x) <= r /\ (g <> 0 -> 0 < r -> Rabs (x' - x) < r /\ (x' - x) * g < 0).
Proof.
  intros r x g P x'. assert (E : x' = x - r * (g / (Rabs g + / 100000000))).
  { unfold x', adamw_step, adam0; simpl. rewrite !Rmult_1_r, !Rmult_0_r, !Rplus_0_l. set (b := 1 - 999 / 1000). assert (Hb : 0 < b) by (unfold b; lra). pose proof (Rle_0_sqr g) as Sq. unfold Rsqr in Sq.
    rewrite Rmax_right by (apply Rmult_le_pos; lra). rewrite sqrt_mult by lra. assert (Hs : 0 < sqrt b) by (apply sqrt_lt_R0; exact Hb).
    assert (G : sqrt (g * g) = Rabs g) by (apply sqrt_Rsqr_abs). rewrite G. pose proof (Rabs_pos g). replace (sqrt b * Rabs g / sqrt b) with (Rabs g) by (field; lra). field. lra. }
  split; [exact E|]. rewrite E. replace (x - r * (g / (Rabs g + / 100000000)) - x) with (- (r * (g / (Rabs g + / 100000000)))) by ring. rewrite Rabs_Ropp, Rabs_mult. rewrite (Rabs_right r) by lra.
  pose proof (Rabs_pos g) as Q. assert (I : 0 < / (Rabs g + / 100000000)) by (apply Rinv_0_lt_compat; lra).
  assert (B : Rabs (g / (Rabs g + / 100000000)) = Rabs g * / (Rabs g + / 100000000)) by (unfold Rdiv; rewrite Rabs_mult, (Rabs_right (/ _)) by lra; reflexivity).
  assert (C : Rabs g * / (Rabs g + / 100000000) < 1) by (apply (Rmult_lt_reg_r (Rabs g + / 100000000)); [lra|]; rewrite Rmult_assoc, Rinv_l; lra).
  rewrite B. split.
  - rewrite <- (Rmult_1_r r) at 2. apply Rmult_le_compat_l; lra.
  - intros N R. split.
    + rewrite <- (Rmult_1_r r) at 2. apply Rmult_lt_compat_l; lra.
    + unfold Rdiv. assert (G : 0 < g * g) by (destruct (Rdichotomy g 0 N); nra). assert (K : 0 < r * (g * g) * / (Rabs g + / 100000000)) by (apply Rmult_lt_0_compat; [apply Rmult_lt_0_compat; assumption|exact I]).
      assert (J : - (r * (g * / (Rabs g + / 100000000))) * g = - (r * (g * g) * / (Rabs g + / 100000000))) by ring. rewrite J. lra.
Qed.
Print Assumptions C131_first_move_adamw.

Lemma abs_move x g t : List.length x = List.length g -> map Rabs (vsub (vadd x (vscal t (vscal (-1) g))) x) = map (fun a => Rabs t * Rabs a) g.
Proof.
  unfold vsub, vadd, vscal. revert g. induction x as [|a x IH]; intros [|b g] L; try discriminate; [reflexivity|]. injection L as L. cbn. f_equal; [|exact (IH g L)].
  rewrite <- Rabs_mult. rewrite <- (Rabs_Ropp (t * b)). f_equal. ring.
Qed.
Lemma no_move x : map Rabs (vsub x x) = map (fun _ => 0) x.
Proof. unfold vsub. rewrite map2_same, map_map. apply map_ext. intros a. replace (a - a) with 0 by ring. apply Rabs_R0. Qed.
Theorem C131_first_move_lbfgs :
  forall r x g, 0 <= r -> List.length x = List.length g ->
    let move := rsum (map Rabs (vsub (lbfgs_first_step r x g) x)) in
    move <= r /\ (1 <= rsum (map Rabs g) -> / 1000000 <= dot g g -> (exists a, In a g /\ / 10000 < Rabs a) -> move = r).
Proof.
  intros r x g P L move. set (s := rsum (map Rabs g)). assert (S0 : 0 <= s) by (unfold s; apply rsum_map_nonneg; intros; apply Rabs_pos).
  assert (Mv : rsum (map Rabs (vsub (vadd x (vscal (Rmin 1 (/ s) * r) (vscal (-1) g))) x)) = Rabs (Rmin 1 (/ s) * r) * s) by (rewrite abs_move by exact L; rewrite rsum_map_scal; reflexivity).
  assert (Z : rsum (map Rabs (vsub x x)) = 0) by (rewrite no_move, rsum_map_const; ring).
  assert (Dn : dot g (vscal (-1) g) = - dot g g) by (rewrite dot_vscal_r; ring).
  unfold move, lbfgs_first_step. fold s. split.
  - destruct (Rleb _ _); [rewrite Z; exact P|]. destruct (Rltb _ _); [rewrite Z; exact P|]. rewrite Mv.
    destruct (Req_dec s 0) as [E|E]; [rewrite E, Rmult_0_r; exact P|]. assert (I : 0 < / s) by (apply Rinv_0_lt_compat; lra).
    assert (M : 0 <= Rmin 1 (/ s) * s <= 1).
    { split; [apply Rmult_le_pos; [apply Rmin_glb; lra|lra]|]. apply Rle_trans with (/ s * s); [apply Rmult_le_compat_r; [lra|apply Rmin_r]|rewrite Rinv_l; lra]. }
    rewrite Rabs_right by (apply Rle_ge, Rmult_le_pos; [apply Rmin_glb; lra|exact P]). replace (Rmin 1 (/ s) * r * s) with (r * (Rmin 1 (/ s) * s)) by ring. rewrite <- (Rmult_1_r r) at 2. apply Rmult_le_compat_l; lra.
  - intros S1 G (a & Ha & B). replace (Rleb (rmax0 (map Rabs g)) (/ 10000)) with false.
    2:{ symmetry. unfold Rleb. destruct (Rle_dec _ _) as [C|]; [|reflexivity]. exfalso. assert (Rabs a <= rmax0 (map Rabs g)) by (apply rmax0_ge, in_map; exact Ha). lra. }
    rewrite Dn. replace (Rltb (- / 1000000) (- dot g g)) with false by (symmetry; apply Rltb_false; lra). rewrite Mv.
    assert (I : / s <= 1) by (rewrite <- Rinv_1; apply Rinv_le_contravar; lra). assert (I0 : 0 < / s) by (apply Rinv_0_lt_compat; lra). rewrite Rmin_right by exact I.
    rewrite Rabs_right by (apply Rle_ge, Rmult_le_pos; lra). field. lra.
Qed.
Print Assumptions C131_first_move_lbfgs.

Example C131_estimators_case : exists d, fits_with read None d /\ a_post d = true /\ exists c, install [1; 2]%Z 3%Z d = Ok (IComposite c) /\ c_params c = [1; 2]%Z.
Proof.
  destruct (nv_named_fits 0 "entropic_torch_post" [[1]; [2]] eq_refl) as (d & H & _). exists d. assert (F : fits_with read None d) by (left; exists (nv_named 0 "entropic_torch_post"), [[1]; [2]], None; split; [exact H|reflexivity]).
  split; [exact F|]. assert (P : a_post d = true) by (apply (C56_newsvendor _ _ _ _ _ H); reflexivity). split; [exact P|].
  destruct (C131_estimators Z [1; 2]%Z 3%Z read None d F ltac:(discriminate)) as (_ & _ & K). destruct (K eq_refl P) as (c & I & Q & _). exists c. auto.
Qed.
Example C131_plain_case : exists d, dualize read (with_rate plain_user (Some (1 / 3)) None) = Ok d /\ install [1%Z] 2%Z d = Ok (IAdamW (1 / 3)).
Proof.
  destruct (plain_built true (Some (1 / 3)) None) as [d H]. exists d. split; [exact H|]. rewrite (C131_plain Z [1%Z] 2%Z read plain_user (Some (1 / 3)) None d H (or_introl eq_refl)). cbn. destruct (Rlt_dec (1 / 3) 0); [lra|reflexivity].
Qed.
Example C131_rate_ignored_case : exists d d', dualize read (with_rate plain_user None (Some "mechanic"%string)) = Ok d /\ dualize read (with_rate plain_user (Some 7) (Some "mechanic"%string)) = Ok d' /\ install [1%Z] 2%Z d' = install [1%Z] 2%Z d.
Proof.
  destruct (plain_built true None (Some "mechanic"%string)) as [d H]. destruct (C131_rate_ignored Z [1%Z] 2%Z read plain_user None (Some 7) "mechanic" d eq_refl (or_introl eq_refl) H) as (d' & H' & _ & I). exists d, d'. auto.
Qed.
Example C131_adapt_names_case : exists d, dualize read (with_rate plain_user None (Some "adam"%string)) = Ok d /\ install [1%Z] 2%Z d = Raise AssertionError.
Proof. destruct (plain_built true None (Some "adam"%string)) as [d H]. exists d. split; [exact H|]. apply (C131_adapt_names Z [1%Z] 2%Z read plain_user None "adam" d H); [discriminate|discriminate|discriminate|reflexivity]. Qed.
Example C131_first_move_adamw_case : Rabs (snd (adamw_step (/ 20) adam0 3 (-2)) - 3) < / 20.
Proof. apply C131_first_move_adamw; lra. Qed.
Example C131_first_move_lbfgs_case : rsum (map Rabs (vsub (lbfgs_first_step 1 [0; 0] [3; -1]) [0; 0])) = 1.
Proof.
  apply (C131_first_move_lbfgs 1 [0; 0] [3; -1]); [lra|reflexivity| |unfold dot; simpl; lra|exists 3; split; [left; reflexivity|rewrite Rabs_right; lra]].
  simpl. rewrite (Rabs_right 3), (Rabs_left (-1)) by lra. lra.
Qed.
