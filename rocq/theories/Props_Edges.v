(* C23, C97, C101 at the edges: powers below 1 in the starting multiplier, what a copied optimiser calls lbd, the errors of the epsilon study. *)
From Coq Require Import Reals List String Lra Lia Arith Bool ZArith.
From Verif Require Import PyBase RList XReal LogMeanExp Costs_Model Dual_Model InitGuess_Model InitGuess_Proofs OptCond_Model Solver_Model Study_Model
  State_Model Props_State Solver_Proofs Study_Proofs Props_Solver Props_Study.
Import ListNotations.
Local Open Scope R_scope.
Notation length := List.length.

(* ---------- C23: powers below 1 ---------- *)
Lemma xpow_pos_fin r e : 0 < r -> e <> 0 -> xpow (Fin r) (Fin e) = Fin (Rpower r e).
Proof.
  intros Hr He. unfold xpow. assert (E : Reqb e 0 = false) by (apply Reqb_false; exact He). rewrite E.
  assert (E' : Reqb r 0 = false) by (apply Reqb_false; lra). rewrite E'. reflexivity.
Qed.
Lemma xsum_fins {A} (f : A -> R) l : xsum (map (fun a => Fin (f a)) l) = Fin (rsum (map f l)).
Proof.
  induction l as [|a l IH]; [reflexivity|].
  change (xsum (map (fun a => Fin (f a)) (a :: l))) with (xadd (Fin (f a)) (xsum (map (fun a => Fin (f a)) l))). rewrite IH. reflexivity.
Qed.
Lemma guess_start rho lam p gn : 0 < rho -> p < 1 ->
  initial_guess (Fin rho) (Fin lam) true p gn =
  let rN := xmul (Fin (INR (length gn))) (xpow (Fin rho) (Fin p)) in
  let s := xsum (map (fun g => xpow (xmul (Fin g) rN) (Fin (p / (p - 1) - 1))) gn) in
  Ok (xadd (xmul (Fin lam) (Fin 0)) (xdiv (xpow s (xdiv (Fin 1) (Fin (p / (p - 1))))) (xmul (Fin p) rN))).
Proof.
  intros Hr Hp. unfold initial_guess. cbn [xlt]. assert (E : Rltb 0 rho = true) by (apply Rltb_true; exact Hr). rewrite E.
  assert (E1 : Reqb p 1 = false) by (apply Reqb_false; lra). rewrite E1. cbn [xsub xopp xadd]. reflexivity.
Qed.
Lemma len_pos {A} (l : list A) : l <> [] -> 0 < INR (length l).
Proof. apply INR_length_pos. Qed.
Lemma rsum_pos l : l <> [] -> Forall (fun a => 0 < a) l -> 0 < rsum l.
Proof.
  intros N F. induction F as [|a l Ha F IH]; [congruence|]. change (0 < a + rsum l). destruct l as [|b l]; [cbn; lra|].
  specialize (IH ltac:(discriminate)). lra.
Qed.

(* the exponent q - 1 = 1/(power - 1) is negative: the starting multiplier decreases with the gradients. It has the sign of the power *)
Theorem C23_power_below_one : forall rho lam p gn, 0 < rho -> p < 1 -> p <> 0 -> gn <> [] -> Forall (fun g => 0 < g) gn ->
  let N := INR (length gn) * Rpower rho p in
  let lam0 := Rpower (rsum (map (fun g => Rpower (g * N) (/ (p - 1))) gn)) ((p - 1) / p) / (p * N) in
  initial_guess (Fin rho) (Fin lam) true p gn = Ok (Fin lam0) /\ (0 < lam0 <-> 0 < p) /\ (lam0 < 0 <-> p < 0).
Proof.
  intros rho lam p gn Hr Hp Hp0 Ne Hg N lam0. pose proof (len_pos gn Ne) as L. assert (HN : 0 < N) by (apply Rmult_lt_0_compat; [exact L|apply exp_pos]).
  split.
  - rewrite guess_start by assumption. cbv zeta. rewrite (xpow_pos_fin rho p Hr Hp0). cbn [xmul]. fold N.
    assert (Hq : p / (p - 1) <> 0).
    { unfold Rdiv. apply Rmult_integral_contrapositive_currified; [exact Hp0|apply Rinv_neq_0_compat; lra]. }
    assert (Hq1 : p / (p - 1) - 1 = / (p - 1)) by (field; lra).
    rewrite (map_ext_in _ (fun g => Fin (Rpower (g * N) (/ (p - 1))))).
    2:{ intros g Hin. rewrite Forall_forall in Hg. rewrite Hq1. apply xpow_pos_fin; [apply Rmult_lt_0_compat; [apply Hg, Hin|exact HN]|apply Rinv_neq_0_compat; lra]. }
    rewrite xsum_fins. cbn [xdiv]. assert (E : Reqb (p / (p - 1)) 0 = false) by (apply Reqb_false; exact Hq). rewrite E.
    replace (1 / (p / (p - 1))) with ((p - 1) / p) by (field; split; lra).
    rewrite xpow_pos_fin.
    + cbn [xdiv]. assert (E' : Reqb (p * N) 0 = false) by (apply Reqb_false; apply Rmult_integral_contrapositive_currified; lra). rewrite E'.
      cbn [xadd]. rewrite Rmult_0_r, Rplus_0_l. reflexivity.
    + apply rsum_pos; [apply map_neq_nil, Ne|]. apply Forall_map, Forall_forall. intros; apply exp_pos.
    + unfold Rdiv. apply Rmult_integral_contrapositive_currified; [lra|apply Rinv_neq_0_compat; exact Hp0].
  - unfold lam0. set (s := Rpower _ ((p - 1) / p)). assert (Hs : 0 < s) by apply exp_pos.
    destruct (Rtotal_order p 0) as [B|[B|B]]; [|contradiction|].
    + assert (s / (p * N) < 0). { unfold Rdiv. assert (/ (p * N) < 0) by (apply Rinv_lt_0_compat; nra). nra. } split; split; intros; lra.
    + assert (0 < s / (p * N)) by (apply Rdiv_lt_0_compat; [exact Hs|nra]). split; split; intros; lra.
Qed.
Print Assumptions C23_power_below_one.

(* one vanishing gradient: 0 for powers in ]0, 1[, minus infinity for negative powers *)
Theorem C23_power_below_one_flat : forall rho lam p gn, 0 < rho -> p < 1 -> p <> 0 -> Forall (fun g => 0 <= g) gn -> In 0 gn ->
  initial_guess (Fin rho) (Fin lam) true p gn = Ok (if Rlt_dec 0 p then Fin 0 else MInf).
Proof.
  intros rho lam p gn Hr Hp Hp0 Hg H0. assert (Ne : gn <> []) by (intros ->; contradiction). pose proof (len_pos gn Ne) as L.
  set (N := INR (length gn) * Rpower rho p). assert (HN : 0 < N) by (apply Rmult_lt_0_compat; [exact L|apply exp_pos]).
  rewrite guess_start by assumption. cbv zeta. rewrite (xpow_pos_fin rho p Hr Hp0). cbn [xmul]. fold N.
  assert (Hq1 : p / (p - 1) - 1 < 0) by (replace (p / (p - 1) - 1) with (/ (p - 1)) by (field; lra); apply Rinv_lt_0_compat; lra).
  set (e := p / (p - 1) - 1) in *.
  assert (Z : xpow (Fin (0 * N)) (Fin e) = PInf).
  { unfold xpow. assert (E : Reqb e 0 = false) by (apply Reqb_false; lra). rewrite E. assert (E' : Reqb (0 * N) 0 = true) by (apply Reqb_true; ring). rewrite E'.
    assert (E2 : Rltb 0 e = false) by (apply Rltb_false; lra). rewrite E2. reflexivity. }
  assert (S : xsum (map (fun g => xpow (Fin (g * N)) (Fin e)) gn) = PInf).
  { assert (Gen : forall l, Forall (fun g => 0 <= g) l -> (In 0 l -> xsum (map (fun g => xpow (Fin (g * N)) (Fin e)) l) = PInf) /\
                     (xsum (map (fun g => xpow (Fin (g * N)) (Fin e)) l) = PInf \/ exists r, xsum (map (fun g => xpow (Fin (g * N)) (Fin e)) l) = Fin r)).
    { intros l F. induction F as [|a l Ha F [IH1 IH2]]; [split; [intros []|right; exists 0; reflexivity]|].
      change (xsum (map (fun g => xpow (Fin (g * N)) (Fin e)) (a :: l))) with (xadd (xpow (Fin (a * N)) (Fin e)) (xsum (map (fun g => xpow (Fin (g * N)) (Fin e)) l))).
      destruct (Req_dec a 0) as [->|Na].
      - rewrite Z. assert (Y : xadd PInf (xsum (map (fun g => xpow (Fin (g * N)) (Fin e)) l)) = PInf) by (destruct IH2 as [-> |[r ->]]; reflexivity). rewrite Y. split; [reflexivity|left; reflexivity].
      - rewrite (xpow_pos_fin (a * N) e) by (try lra; apply Rmult_lt_0_compat; lra). split.
        + intros [->|I]; [contradiction|]. rewrite (IH1 I). reflexivity.
        + destruct IH2 as [-> |[r ->]]; [left; reflexivity|right; eexists; reflexivity]. }
    apply (Gen gn Hg), H0. }
  rewrite S. cbn [xdiv].
  assert (Hq : p / (p - 1) <> 0).
  { unfold Rdiv. apply Rmult_integral_contrapositive_currified; [exact Hp0|apply Rinv_neq_0_compat; lra]. }
  assert (E : Reqb (p / (p - 1)) 0 = false) by (apply Reqb_false; exact Hq). rewrite E.
  replace (1 / (p / (p - 1))) with ((p - 1) / p) by (field; split; lra).
  assert (Ep : Reqb ((p - 1) / p) 0 = false).
  { apply Reqb_false. unfold Rdiv. apply Rmult_integral_contrapositive_currified; [lra|apply Rinv_neq_0_compat; exact Hp0]. }
  unfold xpow. rewrite Ep. destruct (Rlt_dec 0 p) as [P|P].
  - assert (Q : Rltb 0 ((p - 1) / p) = false).
    { apply Rltb_false. unfold Rdiv. pose proof (Rinv_0_lt_compat p P). nra. }
    rewrite Q. cbn [xdiv]. assert (E' : Reqb (p * N) 0 = false) by (apply Reqb_false; apply Rmult_integral_contrapositive_currified; lra). rewrite E'.
    cbn [xadd]. do 2 f_equal. unfold Rdiv. ring.
  - assert (P' : p < 0) by lra. assert (Q : Rltb 0 ((p - 1) / p) = true).
    { apply Rltb_true. unfold Rdiv. pose proof (Rinv_lt_0_compat p P'). nra. }
    rewrite Q. cbn [xdiv]. assert (E' : Rltb (p * N) 0 = true) by (apply Rltb_true; nra). rewrite E'. reflexivity.
Qed.
Print Assumptions C23_power_below_one_flat.

(* the power 0: infinity when the inverse gradients sum to at least the number of points, not a number otherwise *)
Theorem C23_power_zero : forall rho lam gn, 0 < rho -> gn <> [] -> Forall (fun g => 0 < g) gn ->
  initial_guess (Fin rho) (Fin lam) true 0 gn = Ok (if Rle_dec (INR (length gn)) (rsum (map Rinv gn)) then PInf else NaN).
Proof.
  intros rho lam gn Hr Ne Hg. pose proof (len_pos gn Ne) as L. set (N := INR (length gn)) in *.
  rewrite guess_start by (try assumption; lra). cbv zeta. fold N.
  assert (P0 : xpow (Fin rho) (Fin 0) = Fin 1). { unfold xpow. assert (E : Reqb 0 0 = true) by (apply Reqb_true; reflexivity). rewrite E. reflexivity. }
  rewrite P0. cbn [xmul]. replace (0 / (0 - 1)) with 0 by field. cbn [xdiv].
  assert (E0 : Reqb 0 0 = true) by (apply Reqb_true; reflexivity). assert (E1 : Reqb 1 0 = false) by (apply Reqb_false; lra). assert (E2 : Rltb 1 0 = false) by (apply Rltb_false; lra).
  rewrite E0, E1, E2.
  rewrite (map_ext_in _ (fun g => Fin (/ N * / g))).
  2:{ intros g Hin. rewrite Forall_forall in Hg. specialize (Hg g Hin). rewrite xpow_pos_fin by (try lra; nra). f_equal. replace (0 - 1) with (- (1)) by ring.
      rewrite Rpower_Ropp, Rpower_1 by nra. field. lra. }
  rewrite xsum_fins, rsum_map_scal. unfold xpow. set (S := rsum (map Rinv gn)). change (fun g => / g) with Rinv. fold S.
  destruct (Rle_dec N S) as [H|H].
  - assert (G : 1 <= / N * S). { apply (Rmult_le_reg_l N); [exact L|]. rewrite <- Rmult_assoc, Rinv_r by lra. lra. }
    assert (Q : Rltb (/ N * S) 1 = false) by (apply Rltb_false; lra). rewrite Q.
    assert (Z : Reqb (0 * (N * 1)) 0 = true) by (apply Reqb_true; ring). assert (Z' : Rltb (0 * (N * 1)) 0 = false) by (apply Rltb_false; lra).
    destruct (Reqb (/ N * S) 1); cbn [xdiv]; rewrite ?Z, ?Z', ?E1, ?E2; reflexivity.
  - assert (G : / N * S < 1). { apply (Rmult_lt_reg_l N); [exact L|]. rewrite <- Rmult_assoc, Rinv_r by lra. lra. }
    assert (Q : Rltb (/ N * S) 1 = true) by (apply Rltb_true; exact G). rewrite Q. cbn [xdiv].
    assert (Z : Reqb (0 * (N * 1)) 0 = true) by (apply Reqb_true; ring). rewrite Z, E0. reflexivity.
Qed.
Print Assumptions C23_power_zero.

Example C23_power_below_one_case : exists lam0, initial_guess (Fin 1) (Fin 0) true (1 / 2) [1; 1] = Ok (Fin lam0) /\ 0 < lam0.
Proof.
  destruct (C23_power_below_one 1 0 (1 / 2) [1; 1]) as (E & P & _); try lra; try discriminate; [repeat (apply Forall_cons; [lra|]); apply Forall_nil|].
  eexists. split; [exact E|]. apply P. lra.
Qed.
Example C23_power_below_one_flat_case : initial_guess (Fin 1) (Fin 0) true (1 / 2) [1; 0] = Ok (Fin 0) /\ initial_guess (Fin 1) (Fin 0) true (-1) [1; 0] = Ok MInf.
Proof.
  split.
  - rewrite C23_power_below_one_flat; try lra; [|repeat (apply Forall_cons; [lra|]); apply Forall_nil|right; left; reflexivity]. destruct (Rlt_dec 0 (1 / 2)); [reflexivity|lra].
  - rewrite C23_power_below_one_flat; try lra; [|repeat (apply Forall_cons; [lra|]); apply Forall_nil|right; left; reflexivity]. destruct (Rlt_dec 0 (-1)); [lra|reflexivity].
Qed.
Example C23_power_zero_case : initial_guess (Fin 1) (Fin 0) true 0 [2; 4] = Ok NaN /\ initial_guess (Fin 1) (Fin 0) true 0 [/ 2; 4] = Ok PInf.
Proof.
  split; (rewrite C23_power_zero; [|lra|discriminate|repeat (apply Forall_cons; [lra|]); apply Forall_nil]);
    destruct (Rle_dec _ _) as [H|H]; try reflexivity; exfalso; revert H; cbn; lra.
Qed.

(* ---------- C97: what a copied optimiser calls lbd ---------- *)
(* lbd is the multiplier in the original; in the copy it is a dictionary of optimiser state, and the multiplier is nowhere *)
Theorem C97_lbd_lost : forall A H S lbd (c : comp A H S), exists o, copy_obj (to_obj lbd c) = Ok o /\
  lookup "lbd" (to_obj lbd c) = Some (VParam A H S lbd) /\ forall k a, lookup k o <> Some (VParam A H S a).
Proof.
  intros A H S lbd [p l h s]. eexists. split; [reflexivity|]. split; [reflexivity|]. intros k a. unfold lookup. cbn [find fst snd].
  repeat match goal with |- context [String.eqb ?x ?y] => destruct (String.eqb x y); [discriminate|] end. discriminate.
Qed.
Print Assumptions C97_lbd_lost.
Example C97_lbd_lost_case : exists o, copy_obj (to_obj 7%nat (comp_init tt [1%nat] 0%nat 2 3 false : comp nat unit nat)) = Ok o /\ forall k a, lookup k o <> Some (VParam nat unit nat a).
Proof. destruct (C97_lbd_lost nat unit nat 7%nat (comp_init tt [1%nat] 0%nat 2 3 false)) as (o & E & _ & L). exists o. auto. Qed.

(* ---------- C101: which error ---------- *)
(* after the training: ValueError unless there were exactly four recorded losses, TypeError if there were *)
Theorem C101_which_error :
  forall W fwd step_with zero_grad plain_step generate guess reset cond n_iter pos_grad lam_grad lam_item open_figure draw_curves theta intercept lam rho s s1 l,
    study_presample W fwd step_with zero_grad generate guess reset cond n_iter s = (s1, Ok l) ->
    (forall w, snd (open_figure w) = None) ->
    snd (study W fwd step_with zero_grad plain_step generate guess reset cond n_iter pos_grad lam_grad lam_item open_figure draw_curves theta intercept lam true true rho s)
    = Raise (if Nat.eq_dec (length l) 4 then TypeError else ValueError).
Proof.
  intros W fwd step_with zero_grad plain_step generate guess reset cond n_iter pos_grad lam_grad lam_item open_figure draw_curves theta intercept lam rho s s1 l E Hf.
  unfold study, lift, bnd. rewrite E. destruct l as [|a [|b [|c [|d [|f l]]]]]; cbn [unpack4 length Nat.eq_dec]; try reflexivity.
  unfold run. specialize (Hf (s_w s1)). destruct (open_figure (s_w s1)) as [w e]. cbn [snd] in Hf. subst e. reflexivity.
Qed.
Print Assumptions C101_which_error.
Example C101_which_error_case :
  snd (study Z neg_fwd toy_step toy_nop toy_plain toy_nop toy_nop None (fun _ w => (w, Ok false)) (SPair 1 4)
         (fun w => Ok (Fin (IZR w))) (fun w => Ok (Fin (IZR w))) (fun w => Ok (Fin (IZR w))) toy_nop toy_nop
         (fun w => [IZR w]) (fun _ => None) (fun w => [IZR w]) true true PInf {| s_w := 10%Z; s_erm := false; s_imp := true; s_log := [] |}) = Raise TypeError.
Proof.
  erewrite C101_which_error; [|vm_compute; reflexivity|reflexivity]. reflexivity.
Qed.

(* The first guess is made for the library's norm costs only: with a positive radius any other cost, whatever its power and gradients, stops the training with RuntimeError, before the first step. *)
Theorem C23_only_norm_costs : forall rho lam is_norm power gn,
  (initial_guess rho lam is_norm power gn = Raise RuntimeError <-> xlt (Fin 0) rho = true /\ is_norm = false) /\
  (forall e, initial_guess rho lam is_norm power gn = Raise e -> e = RuntimeError).
Proof.
  intros rho lam is_norm power gn. unfold initial_guess. destruct (xlt (Fin 0) rho); [destruct is_norm|]; (split; [split|]).
  all: try discriminate; try (intros [? ?]; discriminate); try (intros _; split; reflexivity); try reflexivity.
  intros e E. injection E as <-. reflexivity.
Qed.
Print Assumptions C23_only_norm_costs.
Example C23_only_norm_costs_case : initial_guess (Fin (1 / 10)) (Fin 7) false 2 [1; 4] = Raise RuntimeError /\ exists v, initial_guess (Fin (-1)) (Fin 7) false 2 [1; 4] = Ok v.
Proof.
  split.
  - apply C23_only_norm_costs. split; [apply Rltb_true; lra|reflexivity].
  - destruct (initial_guess (Fin (-1)) (Fin 7) false 2 [1; 4]) as [v|e] eqn:E; [exists v; reflexivity|]. exfalso.
    pose proof (proj2 (C23_only_norm_costs _ _ _ _ _) _ E) as ->. destruct (proj1 (proj1 (C23_only_norm_costs _ _ _ _ _)) E) as [K _]. apply Rltb_true in K. lra.
Qed.
