(* The project's own tests, run on the models: tests/torch_tests/test_costs.py (values, samplers and displacements of the costs) and
   tests/torch_tests/test_sampler.py. Where a test draws its data at random the example is for all data of that kind.
   These are checks of the models against the expectations their authors wrote down; they belong to no property. *)
From Coq Require Import Reals List Bool Lra Lia ZArith.
From Verif Require Import PyBase RList XReal Tensor Costs_Model Costs_Proofs Displace_Model TDual_Model TDual_Proofs Samplers_Model.
Import ListNotations.
Local Open Scope R_scope.

Ltac decide_reals :=
  repeat match goal with
  | |- context [Reqb ?a ?b] => first [replace (Reqb a b) with true by (symmetry; apply Reqb_true; lra) | replace (Reqb a b) with false by (symmetry; apply Reqb_false; lra)]
  | |- context [Rltb ?a ?b] => first [replace (Rltb a b) with true by (symmetry; apply Rltb_true; lra) | replace (Rltb a b) with false by (symmetry; apply Rltb_false; lra)]
  | |- context [Rleb ?a ?b] => first [replace (Rleb a b) with true by (symmetry; apply Rleb_true; lra) | replace (Rleb a b) with false by (symmetry; apply not_true_is_false; rewrite Rleb_true; lra)]
  end.

(* ---------- TestNormCost ---------- *)
Lemma tpow1 x : 0 <= x -> tpow x 1 = x.
Proof. intros H. unfold tpow. decide_reals. apply ppow_1. exact H. Qed.
Example test_value_computation_p2_power1 :
  t_cost (TNC (PFin 2) 1) (mkT [2; 2]%nat [1; 2; 3; 4]) (mkT [2; 2]%nat [1; 2; 0; 0]) None None = Ok (mkT [2; 1]%nat [0; 5]).
Proof.
  cbn [t_cost]. rewrite bcast_same by reflexivity. cbn [bind]. unfold norm_last, tmap, trows. cbn [shp dat removelast last prodl chunks firstn skipn map2 map app Nat.mul Nat.add].
  rewrite !tpow1 by apply pnorm_nonneg. rewrite !pnorm_2. do 2 f_equal. f_equal; [|f_equal].
  - unfold norm2, sqnorm. cbn. replace (_ + _) with 0 by ring. apply sqrt_0.
  - unfold norm2, sqnorm. cbn. replace (_ + _) with (5 * 5) by ring. apply sqrt_square. lra.
Qed.
Example test_value_computation_p1_power1 :
  t_cost (TNC (PFin 1) 1) (mkT [2; 2]%nat [1; 2; 3; 4]) (mkT [2; 2]%nat [1; 2; 0; 0]) None None = Ok (mkT [2; 1]%nat [0; 7]).
Proof.
  cbn [t_cost]. rewrite bcast_same by reflexivity. cbn [bind]. unfold norm_last, tmap, trows. cbn [shp dat removelast last prodl chunks firstn skipn map2 map app Nat.mul Nat.add].
  rewrite !tpow1 by apply pnorm_nonneg. rewrite !pnorm_1. do 2 f_equal. cbn. f_equal; [|f_equal].
  - replace (1 - 1) with 0 by ring. replace (2 - 2) with 0 by ring. rewrite Rabs_R0. ring.
  - rewrite !Rabs_right by lra. ring.
Qed.
(* test_value_without_labels, test_value_with_labels, test_value_kappa_zero, test_value_kappa_inf: one number per row, for every cost *)
Example test_value_shapes : forall c m d dl x z y w, wf (mkT [m; d] x) -> wf (mkT [m; d] z) -> wf (mkT [m; dl] y) -> wf (mkT [m; dl] w) ->
  exists v, t_cost c (mkT [m; d] x) (mkT [m; d] z) (Some (mkT [m; dl] y)) (Some (mkT [m; dl] w)) = Ok v /\ shp v = [m; 1]%nat.
Proof.
  intros c m d dl x z y w Wx Wz Wy Ww. assert (Ex := bcast_same Rminus [m; d] x z Wx Wz). assert (Ey := bcast_same Rminus [m; dl] y w Wy Ww).
  destruct c as [p power|p power [k|]]; cbn [t_cost]; rewrite ?Ex, ?Ey; cbn [bind]; try (eexists; split; [reflexivity|reflexivity]).
  destruct (Reqb k 0); [eexists; split; reflexivity|]. assert (L : forall s : list R, List.length (map (pnorm p) (chunks (m * 1) d s)) = (m * (1 * 1))%nat) by (intros s; rewrite map_length, chunks_len; lia).
  assert (L' : forall s : list R, List.length (map (pnorm p) (chunks (m * 1) dl s)) = (m * (1 * 1))%nat) by (intros s; rewrite map_length, chunks_len; lia).
  unfold norm_last, tmap at 1, trows. cbn [shp dat removelast last prodl app]. rewrite bcast_same; [cbn [bind]; eexists; split; reflexivity|apply L|cbn [prodl]; rewrite map_length; apply L'].
Qed.
(* test_sampler_data_p_power, test_sampler_data_none_epsilon: which costs have a law for the data *)
Example test_sampler_data : forall xi p w, In (p, w) [(Fin 1, Fin 1); (Fin 2, Fin 1); (Fin 2, Fin 2); (PInf, Fin 1)] ->
  forall eps, In eps [Some (1 / 10); None] -> exists d, sampler_data (SNC p w) xi eps = Ok d.
Proof.
  intros xi p w H eps E. unfold sampler_data, family. cbn in H, E.
  destruct H as [H|[H|[H|[H|[]]]]]; injection H as <- <-; destruct E as [<-|[<-|[]]]; unfold xeq, loc_scale, xlt; cbn; decide_reals; eexists; reflexivity.
Qed.
Example test_sampler_data_inf_2 : forall xi eps, sampler_data (SNC PInf (Fin 2)) xi eps = Raise NotImplementedError.
Proof. intros xi eps. unfold sampler_data, family. unfold xeq; cbn. decide_reals. reflexivity. Qed.
(* test_sampler_labels_with_labels and test_sampler_labels_without_labels of NormCost *)
Example test_sampler_labels_nc : (forall p w y eps, sampler_labels (SNC p w) y eps = Ok (nc_sampler_labels (Some y))) /\ nc_sampler_labels None = None.
Proof. split; reflexivity. Qed.
(* test_sampler_labels_with_labels, _none_epsilon and _kappa_inf of NormLabelCost *)
Example test_sampler_labels_nlc : forall y p w k, In (p, w, k) [(Fin 2, Fin 1, 10000); (Fin 1, Fin 1, 100); (PInf, Fin 1, 100)] ->
  forall eps, In eps [Some (1 / 10); None] -> exists d, sampler_labels (SNLC p w (Fin k)) y eps = Ok (Some d).
Proof.
  intros y p w k H eps E. unfold sampler_labels, family. cbn in H, E.
  destruct H as [H|[H|[H|[]]]]; injection H as <- <- <-; destruct E as [<-|[<-|[]]]; unfold xeq, loc_scale, xlt, xdiv; cbn; decide_reals; eexists; reflexivity.
Qed.
Example test_sampler_labels_kappa_inf : forall y eps, sampler_labels (SNLC (Fin 2) (Fin 1) PInf) y eps = Ok (Some (DiracAt y)).
Proof. reflexivity. Qed.

(* test_solve_max_series_exp_with_labels and _without_labels of both classes: xi + rhs / 2, and the labels only for the labelled cost *)
Example test_solve_max : forall s sl x r y q k, wf (mkT s x) -> wf (mkT s r) -> wf (mkT sl y) -> wf (mkT sl q) ->
  let moved := mkT s (map2 (fun a b => a + / 2 * b) x r) in
  t_solve_max (TNC (PFin 2) 2) (mkT s x) (Some (mkT sl y)) (mkT s r) (Some (mkT sl q)) = Ok (moved, Some (mkT sl y)) /\
  t_solve_max (TNC (PFin 2) 2) (mkT s x) None (mkT s r) None = Ok (moved, None) /\
  t_solve_max (TNLC (PFin 2) 2 (KFin k)) (mkT s x) None (mkT s r) None = Ok (moved, None) /\
  t_solve_max (TNLC (PFin 2) 2 (KFin k)) (mkT s x) (Some (mkT sl y)) (mkT s r) (Some (mkT sl q)) = Ok (moved, Some (mkT sl (map2 (fun a b => a + / 2 * b / k) y q))) /\
  (forall w xl rl, w <> 2 -> t_solve_max (TNLC (PFin 2) w (KFin k)) (mkT s x) xl (mkT s r) rl = Raise NotImplementedError).
Proof.
  assert (M : forall (f : R -> R) (x r : list R), map2 Rplus x (map f r) = map2 (fun a b => a + f b) x r) by (intros f x; induction x as [|a x IH]; intros [|b r]; cbn; rewrite ?IH; reflexivity).
  intros s sl x r y q k Wx Wr Wy Wq moved. unfold t_solve_max, tc_p, tc_power, nexp_is_2, tmap. cbn [shp dat]. decide_reals. cbn [andb].
  assert (B : bcast Rplus (mkT s x) (mkT s (map (Rmult (/ 2)) r)) = Ok moved).
  { rewrite bcast_same; [rewrite M; reflexivity|exact Wx|rewrite map_length; exact Wr]. }
  rewrite B. cbn [bind]. repeat split.
  - rewrite bcast_same; [cbn [bind]; rewrite M; reflexivity|exact Wy|rewrite map_length; exact Wq].
  - intros w xl rl Hw. replace (Reqb 2 w) with false by (symmetry; apply Reqb_false; intros E; apply Hw; symmetry; exact E). reflexivity.
Qed.

(* ---------- test_sampler.py ---------- *)
(* test_size_samples_classif, first part: no labels given to a labelled sampler; with labels the constructor is the one used elsewhere *)
Example test_labels_missing : forall xi seed, labeled_init_nc (Fin 2) (Fin 2) xi None (Some (1 / 10)) seed = Raise ValueError.
Proof. intros xi seed. unfold labeled_init_nc, sampler_data, family, loc_scale, xlt, xeq. cbn. decide_reals. reflexivity. Qed.
(* test_covars_handler: any one of the four keywords is enough, none is a ValueError *)
Example test_covars_handler : forall d s M,
  init_covar d (Some s) None None None = Ok (ScaleTril (eye_scaled d s)) /\ init_covar d None None None (Some M) = Ok (CovMatrix M) /\
  init_covar d None None (Some M) None = Ok (PrecMatrix M) /\ init_covar d None None None None = Raise ValueError.
Proof. repeat split. Qed.
(* assert_shapes: the Bernoulli sampler draws labels of absolute value one *)
Example test_labs_values : forall y b, Rabs y = 1 -> Rabs (flip_label y b) = 1.
Proof.
  intros y b H. unfold flip_label. destruct b; [replace (- y + 2 * y * 1) with y by ring; exact H|replace (- y + 2 * y * 0) with (- y) by ring; rewrite Rabs_Ropp; exact H].
Qed.
