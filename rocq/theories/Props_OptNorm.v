(* C125: the norm in which the stopping condition measures gradients. *)
From Coq Require Import Reals List Bool String ZArith Lra Lia.
From Verif Require Import PyBase RList XReal Costs_Model Costs_Spec Costs_Proofs OptCond_Model OptCond_Spec OptCond_Proofs EstCond_Model OptNorm_Model OptNorm_Proofs.
Import ListNotations.
Local Open Scope R_scope.

(* a run seen by the condition: the gradients are the real vectors gs, within the iteration budget *)
Definition gradients (hs : list (obs * Z)) (gs : list (list R)) : Prop := Forall2 shows_grad hs (map (map Fin) gs) /\ Forall in_budget hs.
(* Euclidean length, independently of the model's norms *)
Definition euclid (g : list R) : R := sqrt (fold_right (fun a s => a * a + s) 0 g).

Lemma pnorm_euclid g : pnorm (PFin 2) g = euclid g.
Proof.
  rewrite pnorm_2. unfold norm2, euclid, sqnorm, dot. f_equal. induction g as [|a g IH]; simpl; [reflexivity|]. rewrite IH. reflexivity.
Qed.

(* The estimators' default condition stops when the Euclidean norm of all the gradients together is below 1e-8 times that of the first
   evaluation; the one of LogisticRegression has 1e-4. *)
Theorem C125_default : forall h hs g0 gs, gradients (h :: hs) (g0 :: gs) ->
  exists bs cs, default_evals (h :: hs) = Ok (Ok false :: map Ok bs) /\ logistic_evals (h :: hs) = Ok (Ok false :: map Ok cs) /\
    Forall2 (fun g b => b = true <-> euclid g < / 100000000 * euclid g0) gs bs /\ Forall2 (fun g b => b = true <-> euclid g < / 10000 * euclid g0) gs cs.
Proof.
  intros h hs g0 gs (F & B).
  exists (map (fun g => Rltb (pnorm (PFin 2) g) (/ 100000000 * pnorm (PFin 2) g0)) gs), (map (fun g => Rltb (pnorm (PFin 2) g) (/ 10000 * pnorm (PFin 2) g0)) gs).
  split; [|split; [|split]].
  - unfold default_evals. destruct default_cond as [c|] eqn:E; [|discriminate]. cbn [bind]. f_equal. rewrite map_map. exact (evals_real default_order (/ 100000000) (Fin (/ 100000000)) None Rel c h hs g0 gs E ltac:(lra) F B).
  - unfold logistic_evals. destruct logistic_cond as [c|] eqn:E; [|discriminate]. cbn [bind]. f_equal. rewrite map_map. exact (evals_real logistic_order (/ 10000) (Fin 0) None Rel c h hs g0 gs E ltac:(lra) F B).
  - clear. induction gs as [|g gs IH]; constructor; [|exact IH]. rewrite Rltb_true, !pnorm_euclid. reflexivity.
  - clear. induction gs as [|g gs IH]; constructor; [|exact IH]. rewrite Rltb_true, !pnorm_euclid. reflexivity.
Qed.
Print Assumptions C125_default.

(* Order 'inf' with an absolute tolerance: stop when every partial derivative is below the tolerance. *)
Theorem C125_maximum_norm : forall tol tl mi c h hs g0 gs, oc_init (OrdStr "inf") (Fin tol) tl mi "theta" "abs" "grad" = Ok c -> 0 < tol -> gradients (h :: hs) (g0 :: gs) ->
  exists bs, evals (vector_norm (OrdStr "inf")) c (h :: hs) = Ok false :: map Ok bs /\ Forall2 (fun g b => b = true <-> forall a, In a g -> - tol < a < tol) gs bs.
Proof.
  intros tol tl mi c h hs g0 gs Hc Ht (F & B). exists (map (fun g => Rltb (pnorm PInfty g) tol) gs). split.
  - rewrite map_map. exact (evals_real (OrdStr "inf") tol tl mi Abs c h hs g0 gs Hc Ht F B).
  - clear -Ht. induction gs as [|g gs IH]; constructor; [|exact IH]. rewrite Rltb_true, pnorm_inf_lt, Forall_forall by exact Ht. split; intros H a Ha; specialize (H a Ha).
    + apply Rabs_def2 in H. lra.
    + apply Rabs_def1; lra.
Qed.
Print Assumptions C125_maximum_norm.

(* With an absolute tolerance a condition of larger order (or 'inf') stops whenever one of smaller order does. *)
Theorem C125_order : forall p o tol tl mi c c' h hs g0 gs i,
  oc_init (OrdInt p) (Fin tol) tl mi "theta" "abs" "grad" = Ok c -> oc_init o (Fin tol) tl mi "theta" "abs" "grad" = Ok c' ->
  (match o with OrdInt q => (p <= q)%Z | OrdStr _ => True end) -> 0 < tol -> gradients (h :: hs) (g0 :: gs) ->
  nth_error (evals (vector_norm (OrdInt p)) c (h :: hs)) i = Some (Ok true) -> nth_error (evals (vector_norm o) c' (h :: hs)) i = Some (Ok true).
Proof.
  intros p o tol tl mi c c' h hs g0 gs i H1 H2 Ho Ht (F & B).
  rewrite (evals_real (OrdInt p) tol tl mi Abs c h hs g0 gs H1 Ht F B), (evals_real o tol tl mi Abs c' h hs g0 gs H2 Ht F B).
  destruct (init_order _ _ _ _ _ _ _ _ H1) as (V & _). simpl in V.
  destruct i as [|i]; [intros X; simpl in X; discriminate X|]. cbn [nth_error]. rewrite !nth_error_map. unfold vec in *. destruct (nth_error gs i) as [g|]; cbn [option_map]; [|intros X; discriminate X].
  intros E. assert (L : Rltb (pnorm (norm_order (OrdInt p)) g) tol = true) by (injection E as E; exact E). rewrite Rltb_true in L. do 2 f_equal. rewrite Rltb_true.
  refine (Rle_lt_trans _ _ _ _ L). destruct o as [q|s]; [apply pnorm_anti; [exact V|apply IZR_le, Ho]|apply pnorm_inf_le; exact V].
Qed.
Print Assumptions C125_order.

(* With a relative tolerance this fails: order 1 stops where 'inf' does not. *)
Definition seen_grads (a b : list R) : list (obs * Z) :=
  [({| o_mem := fun _ => Fin 0; o_lam := 0; o_lgrad := None; o_theta := [map Fin a]; o_tgrad := [Some (map Fin a)]; o_niter := SInt 10 |}, 0%Z);
   ({| o_mem := fun _ => Fin 0; o_lam := 0; o_lgrad := None; o_theta := [map Fin b]; o_tgrad := [Some (map Fin b)]; o_niter := SInt 10 |}, 1%Z)].
Lemma seen_gradients a b : gradients (seen_grads a b) [a; b].
Proof.
  split; [|repeat constructor]. repeat constructor.
  - exists [map Fin a]. simpl. rewrite app_nil_r. repeat split; discriminate.
  - exists [map Fin b]. simpl. rewrite app_nil_r. repeat split; discriminate.
Qed.
Theorem C125_relative_order_refuted : exists tol c c' hs,
  oc_init (OrdInt 1) (Fin tol) (Fin 0) None "theta" "rel" "grad" = Ok c /\ oc_init (OrdStr "inf") (Fin tol) (Fin 0) None "theta" "rel" "grad" = Ok c' /\ 0 < tol /\
  evals (vector_norm (OrdInt 1)) c hs = [Ok false; Ok true] /\ evals (vector_norm (OrdStr "inf")) c' hs = [Ok false; Ok false].
Proof.
  exists (3 / 4). eexists. eexists. exists (seen_grads [1; 1] [1; 0]). split; [reflexivity|]. split; [reflexivity|]. split; [lra|]. destruct (seen_gradients [1; 1] [1; 0]) as (F & B). split.
  - refine (eq_trans (evals_real (OrdInt 1) (3 / 4) (Fin 0) None Rel _ _ _ [1; 1] [[1; 0]] eq_refl ltac:(lra) F B) _). cbn [map]. f_equal. f_equal. f_equal. apply Rltb_true.
    change (norm_order (OrdInt 1)) with (PFin 1). rewrite !pnorm_1. simpl. rewrite Rabs_R1, Rabs_R0. lra.
  - refine (eq_trans (evals_real (OrdStr "inf") (3 / 4) (Fin 0) None Rel _ _ _ [1; 1] [[1; 0]] eq_refl ltac:(lra) F B) _). cbn [map]. f_equal. f_equal. f_equal. apply Rltb_false.
    simpl. rewrite Rabs_R1, Rabs_R0. rewrite (Rmax_left 0 0), (Rmax_left 1 0), (Rmax_left 1 1) by lra. lra.
Qed.
Print Assumptions C125_relative_order_refuted.

(* A relative tolerance does not see the scale of the loss: multiplying all the gradients by the same factor changes no answer. *)
Theorem C125_scale_free : forall o tol tl mi c h hs h' hs' g0 gs k, oc_init o (Fin tol) tl mi "theta" "rel" "grad" = Ok c -> 0 < tol -> k <> 0 ->
  gradients (h :: hs) (g0 :: gs) -> gradients (h' :: hs') (map (map (Rmult k)) (g0 :: gs)) ->
  evals (vector_norm o) c (h' :: hs') = evals (vector_norm o) c (h :: hs).
Proof.
  intros o tol tl mi c h hs h' hs' g0 gs k Hc Ht Hk (F & B) (F' & B').
  rewrite (evals_real o tol tl mi Rel c h hs g0 gs Hc Ht F B), (evals_real o tol tl mi Rel c h' hs' (map (Rmult k) g0) (map (map (Rmult k)) gs) Hc Ht F' B'). f_equal.
  rewrite map_map. apply map_ext. intros g. f_equal. destruct (init_order _ _ _ _ _ _ _ _ Hc) as (V & _).
  change (map (Rmult k) g) with (vscal k g). change (map (Rmult k) g0) with (vscal k g0). rewrite !pnorm_vscal by exact V. apply Rabs_pos_lt in Hk.
  set (a := pnorm (norm_order o) g). set (b := pnorm (norm_order o) g0). destruct (Rltb a (tol * b)) eqn:E.
  - rewrite Rltb_true in E |- *. replace (tol * (Rabs k * b)) with (Rabs k * (tol * b)) by ring. apply Rmult_lt_compat_l; assumption.
  - rewrite Rltb_false in E |- *. replace (tol * (Rabs k * b)) with (Rabs k * (tol * b)) by ring. apply Rmult_le_compat_l; [lra|exact E].
Qed.
Print Assumptions C125_scale_free.

(* Gradients that are not finite: a NaN never stops the run, and after a NaN at the first evaluation no later one does; after an infinite
   first gradient every finite one counts as converged in relative mode. *)
Theorem C125_not_finite : forall o tol tl mi c h hs g0 gs, oc_init o (Fin tol) tl mi "theta" "rel" "grad" = Ok c -> 0 < tol ->
  Forall2 shows_grad (h :: hs) (g0 :: gs) -> Forall in_budget (h :: hs) ->
  exists bs, evals (vector_norm o) c (h :: hs) = Ok false :: map Ok bs /\
    Forall2 (fun g b => (In NaN g \/ In NaN g0 -> b = false) /\
                        (~ In NaN g0 -> (exists a, In a g0 /\ (a = PInf \/ a = MInf)) -> (exists r, g = map Fin r) -> b = true)) gs bs.
Proof.
  intros o tol tl mi c h hs g0 gs Hc Ht F B. destruct (init_order _ _ _ _ _ _ _ _ Hc) as (V & Fr & T & Mo & Md & Me).
  exists (map (fun g => xlt (vector_norm o g) (xmul (Fin tol) (vector_norm o g0))) gs). split.
  - rewrite map_map. rewrite (grad_theta (vector_norm o) c Rel h hs g0 gs); auto.
    + rewrite T. reflexivity.
    + rewrite Mo. left. reflexivity.
    + rewrite T. simpl. apply Rltb_true. exact Ht.
  - assert (N : forall v, In NaN v -> vector_norm o v = NaN).
    { intros v Hv. unfold vector_norm. assert (E : existsb isnan v = true) by (apply existsb_exists; exists NaN; auto). rewrite E. reflexivity. }
    clear F B. induction gs as [|g gs IH]; constructor; [|exact IH]. split.
    + intros [H|H]; rewrite (N _ H); [reflexivity|]. simpl. destruct (vector_norm o g); reflexivity.
    + intros Hn (a & Ha & Hi) (r & ->). rewrite vector_norm_fin.
      assert (E : vector_norm o g0 = PInf).
      { unfold vector_norm. destruct (existsb isnan g0) eqn:E1; [apply existsb_exists in E1 as (x & Hx & Ex); destruct x; try discriminate; contradiction|].
        assert (E2 : existsb (fun x => negb (isfinite x)) g0 = true) by (apply existsb_exists; exists a; split; [exact Ha|destruct Hi; subst; reflexivity]). rewrite E2. reflexivity. }
      rewrite E. simpl. unfold inf_times. assert (E3 : Reqb tol 0 = false) by (apply Reqb_false; lra). assert (E4 : Rltb tol 0 = false) by (apply Rltb_false; lra). rewrite E3, E4. reflexivity.
Qed.
Print Assumptions C125_not_finite.

(* the answers of the default conditions for Euclidean norms 5 and 5e-7 *)
Example C125_default_case : exists bs cs, default_evals (seen_grads [3; 4] [/ 2000000; 0]) = Ok (Ok false :: map Ok bs) /\
  logistic_evals (seen_grads [3; 4] [/ 2000000; 0]) = Ok (Ok false :: map Ok cs) /\ bs = [false] /\ cs = [true].
Proof.
  assert (E5 : euclid [3; 4] = 5) by (unfold euclid; simpl; apply sqrt_lem_1; lra). assert (E6 : euclid [/ 2000000; 0] = / 2000000) by (unfold euclid; simpl; apply sqrt_lem_1; lra).
  destruct (C125_default _ _ _ _ (seen_gradients [3; 4] [/ 2000000; 0])) as (bs & cs & H1 & H2 & F1 & F2). exists bs, cs. split; [exact H1|]. split; [exact H2|].
  inversion F1 as [|? b ? bs' Hb Fb]; subst. inversion Fb; subst. inversion F2 as [|? b' ? cs' Hc Fc]; subst. inversion Fc; subst. rewrite E5, E6 in *. split; f_equal.
  - destruct b; [|reflexivity]. destruct Hb as [Hb _]. specialize (Hb eq_refl). lra.
  - apply Hc. lra.
Qed.
Example C125_maximum_norm_case : exists c bs, oc_init (OrdStr "inf") (Fin 2) (Fin 0) None "theta" "abs" "grad" = Ok c /\
  evals (vector_norm (OrdStr "inf")) c (seen_grads [3; 4] [1; -1]) = Ok false :: map Ok bs /\ bs = [true].
Proof.
  eexists. destruct (C125_maximum_norm 2 (Fin 0) None _ _ _ _ _ eq_refl ltac:(lra) (seen_gradients [3; 4] [1; -1])) as (bs & E & F). exists bs. split; [reflexivity|]. split; [exact E|].
  inversion F as [|? b ? bs' Hb Fb]; subst. inversion Fb; subst. f_equal. apply Hb. intros a [<-|[<-|[]]]; lra.
Qed.
(* norm 1 of (1, -1) is 2 < 5/2, so orders 2, 3 and inf stop as well *)
Example C125_order_case : forall q, (1 <= q)%Z -> exists c, oc_init (OrdInt q) (Fin (5 / 2)) (Fin 0) None "theta" "abs" "grad" = Ok c /\
  nth_error (evals (vector_norm (OrdInt q)) c (seen_grads [3; 4] [1; -1])) 1 = Some (Ok true).
Proof.
  intros q Hq. destruct (oc_init (OrdInt q) (Fin (5 / 2)) (Fin 0) None "theta" "abs" "grad") as [c|] eqn:E.
  - exists c. split; [reflexivity|]. refine (C125_order 1 (OrdInt q) (5 / 2) (Fin 0) None _ c _ _ [3; 4] [[1; -1]] 1 eq_refl E Hq _ (seen_gradients [3; 4] [1; -1]) _); [lra|].
    destruct (seen_gradients [3; 4] [1; -1]) as (F & B). refine (eq_trans (f_equal (fun l => nth_error l 1) (evals_real (OrdInt 1) (5 / 2) (Fin 0) None Abs _ _ _ [3; 4] [[1; -1]] eq_refl ltac:(lra) F B)) _).
    cbn [map nth_error]. do 2 f_equal. apply Rltb_true. change (norm_order (OrdInt 1)) with (PFin 1). rewrite pnorm_1. simpl. rewrite Rabs_R1. replace (Rabs (-1)) with 1 by (rewrite Rabs_left; lra). lra.
  - unfold oc_init, assert_ in E. destruct (Z.ltb_spec 0 q); [discriminate|lia].
Qed.
Example C125_scale_free_case : exists c, oc_init (OrdInt 3) (Fin (1 / 2)) (Fin 0) None "theta" "rel" "grad" = Ok c /\
  evals (vector_norm (OrdInt 3)) c (seen_grads [-30; 40] [-10; 0]) = evals (vector_norm (OrdInt 3)) c (seen_grads [3; -4] [1; 0]).
Proof.
  eexists. split; [reflexivity|]. refine (C125_scale_free (OrdInt 3) (1 / 2) (Fin 0) None _ _ _ _ _ [3; -4] [[1; 0]] (-10) eq_refl _ _ (seen_gradients [3; -4] [1; 0]) _); [lra|lra|].
  cbn [map]. replace (-10 * 3) with (-30) by ring. replace (-10 * -4) with 40 by ring. replace (-10 * 1) with (-10) by ring. replace (-10 * 0) with 0 by ring. exact (seen_gradients [-30; 40] [-10; 0]).
Qed.
Definition seen_x (a b : list xr) : list (obs * Z) :=
  [({| o_mem := fun _ => Fin 0; o_lam := 0; o_lgrad := None; o_theta := [a]; o_tgrad := [Some a]; o_niter := SInt 10 |}, 0%Z);
   ({| o_mem := fun _ => Fin 0; o_lam := 0; o_lgrad := None; o_theta := [b]; o_tgrad := [Some b]; o_niter := SInt 10 |}, 1%Z)].
Example C125_not_finite_case : exists c bs, oc_init (OrdInt 2) (Fin 1) (Fin 0) None "theta" "rel" "grad" = Ok c /\
  evals (vector_norm (OrdInt 2)) c (seen_x [Fin 1; MInf] [Fin 7; Fin 8]) = Ok false :: map Ok bs /\ bs = [true].
Proof.
  eexists. destruct (C125_not_finite (OrdInt 2) 1 (Fin 0) None _ (hd (({| o_mem := fun _ => Fin 0; o_lam := 0; o_lgrad := None; o_theta := []; o_tgrad := []; o_niter := SInt 10 |}, 0%Z)) (seen_x [Fin 1; MInf] [Fin 7; Fin 8]))
    (tl (seen_x [Fin 1; MInf] [Fin 7; Fin 8])) [Fin 1; MInf] [[Fin 7; Fin 8]] eq_refl ltac:(lra)) as (bs & E & F).
  - repeat constructor; [exists [[Fin 1; MInf]]|exists [[Fin 7; Fin 8]]]; repeat split; discriminate.
  - repeat constructor.
  - exists bs. split; [reflexivity|]. split; [exact E|]. inversion F as [|? b ? bs' Hb Fb]; subst. inversion Fb; subst. f_equal. apply Hb.
    + intros [H|[H|[]]]; discriminate.
    + exists MInf. split; [right; left; reflexivity|right; reflexivity].
    + exists [7; 8]. reflexivity.
Qed.
