(* The project's own tests, run on the models: tests/torch_tests/test_hybrid_sgd.py, test_losses_formats.py (the wrapper's shapes and
   the missing sampler), test_preimplemented_losses.py and tests/test_interfaces/test_guards.py. Random data of a test is arbitrary
   data here. These are checks of the models against the expectations their authors wrote down; they belong to no property. *)
From Coq Require Import Reals List Bool Lra Lia ZArith String.
From Verif Require Import PyBase RList XReal Tensor Loss_Model Loss_Spec Loss_Proofs Props_Loss Predictor_Model Props_Predictor.
From Verif Require HybridOpt_Model Zeta_Model Samplers_Model Lifecycle_Model Tuner_Model.
Import ListNotations.
Local Open Scope R_scope.

(* ---------- test_hybrid_sgd.py ---------- *)
Section Hybrid.
  Import HybridOpt_Model.
  Definition pars (lr_a lr_b a b : R) (ga gb : R) : list group :=
    [{| g_keys := ["params"; "lr"; "mwu"]%string; g_lr := lr_a; g_params := [{| val := [a]; grad := Some [ga] |}] |};
     {| g_keys := ["params"; "lr"; "non_neg"]%string; g_lr := lr_b; g_params := [{| val := [b]; grad := Some [gb] |}] |}].
  (* multiplicative weights in the first group, a projected step in the second, for every gradient *)
  Example test_hybrid_sgd : forall lr_a lr_b a b ga gb, 0 < a ->
    hstep sgd (pars lr_a lr_b a b ga gb) = (pars lr_a lr_b (a * exp (- (lr_a * ga))) (Rmax 0 (b - lr_b * gb)) ga gb, None).
  Proof.
    intros lr_a lr_b a b ga gb Ha. unfold hstep. cbn. unfold pre_mwu. cbn. replace (Rltb 0 a) with true by (symmetry; apply Rltb_true; exact Ha). cbn.
    unfold post_mwu, post_non_neg, with_params, upd, pars. cbn. repeat f_equal. unfold Rminus. rewrite exp_plus, exp_ln by exact Ha. reflexivity.
  Qed.
End Hybrid.

(* ---------- test_losses_formats.py ---------- *)
Section Formats.
  Import Samplers_Model Zeta_Model.
  Definition s_ex : csampler := mkCS (SNC (Fin 2) (Fin 2)) (Some 1) None (DiracAt []) None.
  (* assert_no_sampler: the wrapper has no default sampler, a removed sampler is reported, and a new one can be installed *)
  Example test_assert_no_sampler : forall chol pchol xi y eps seed d xs (G : Type) draw coins n (g : G),
    default_sampler chol pchol KWrapped xi y eps seed = Raise UserExn /\
    generate_zetas G draw coins (set_sampler d None) n g = Raise ValueError /\
    (du_cost d = SNC (Fin 2) (Fin 2) ->
      (lo_has_labels (du_loss d) = false -> exists r, init_sampler (set_sampler d None) xs None (1 / 10) None = Ok r) /\
      (lo_has_labels (du_loss d) = true -> forall ys, exists r, init_sampler (set_sampler d None) xs (Some ys) (1 / 10) None = Ok r)).
  Proof.
    intros chol pchol xi y eps seed d xs G draw coins n g. split; [reflexivity|]. split; [reflexivity|]. intros C.
    assert (S : sampler_data (SNC (Fin 2) (Fin 2)) xs (Some (1 / 10)) = Ok (LocScale FNormal xs (Fin (1 / 10)))).
    { unfold sampler_data, family, loc_scale, xeq, xlt. cbn. repeat match goal with |- context [Reqb ?a ?b] => first [replace (Reqb a b) with true by (symmetry; apply Reqb_true; lra) | replace (Reqb a b) with false by (symmetry; apply Reqb_false; lra)] end.
      cbn. replace (Rltb 0 (1 / 10)) with true by (symmetry; apply Rltb_true; lra). reflexivity. }
    split; intros L; [|intros ys]; unfold init_sampler, set_sampler; cbn [du_loss du_cost lo_has_labels]; rewrite L, C; unfold nolabels_init, labeled_init; rewrite S; cbn; eexists; reflexivity.
  Qed.
End Formats.

(* ---------- test_preimplemented_losses.py ---------- *)
(* TestLoss: the penalty *)
Example test_l2reg : l2reg_of (Some (1 / 2)) = Some (1 / 2) /\ l2reg_of (Some (- (1 / 2))) = None /\ l2reg_of (Some 0) = None /\ l2reg_of None = None.
Proof.
  unfold l2reg_of. repeat split.
  - replace (Rleb (1 / 2) 0) with false; [reflexivity|]. symmetry. apply not_true_is_false. rewrite Rleb_true. lra.
  - replace (Rleb (- (1 / 2)) 0) with true; [reflexivity|]. symmetry. apply Rleb_true. lra.
  - replace (Rleb 0 0) with true; [reflexivity|]. symmetry. apply Rleb_true. lra.
Qed.
Example test_regularize : forall th l, regularize None (Ok th) l = Ok l /\
  (rsum (map (fun a => a * a) th) > 0 -> exists v, regularize (Some (1 / 10)) (Ok th) (mkT [] [5]) = Ok (mkT [] [v]) /\ v > 5).
Proof. intros th l. split; [reflexivity|]. intros H. eexists. split; [reflexivity|]. lra. Qed.
(* test_sampler_getter_raises, test_sampler_setter, test_sampler_deleter *)
Example test_sampler_attribute : forall d s, Zeta_Model.get_sampler (Zeta_Model.set_sampler d None) = Raise ValueError /\ Zeta_Model.get_sampler (Zeta_Model.set_sampler d (Some s)) = Ok s /\
  exists d', Zeta_Model.del_sampler (Zeta_Model.set_sampler d (Some s)) = Ok d' /\ Zeta_Model.get_sampler d' = Raise AttributeError.
Proof. intros d s. repeat split. eexists. split; reflexivity. Qed.
(* TestBiDiffSoftMarginLoss: the shape of the input, also for a flat target *)
Example test_forward : forall n a b, List.length a = n -> List.length b = n -> exists v w,
  softmargin (mkT [n; 1%nat] a) (mkT [n; 1%nat] b) = Ok v /\ shp v = [n; 1%nat] /\ softmargin (mkT [n; 1%nat] a) (mkT [n] b) = Ok w /\ shp w = [n; 1%nat] /\ v = w.
Proof.
  intros n a b A B. unfold softmargin, view. cbn [shp dat prodl]. replace (n * (1 * 1))%nat with (List.length b) by lia. rewrite Nat.eqb_refl. cbn [bind]. eexists. eexists. repeat split.
Qed.
(* TestLogisticLoss, TestQuadraticLoss *)
Example test_logistic : forall b X y, List.length X = 10%nat -> widths 5 X -> List.length y = 10%nat -> exists g p v, logistic_new 5 None b = Ok g /\
  logistic_predict g (batch [10%nat] 5 X) = Ok (per_sample [10%nat] p) /\ Forall (fun a => -1 <= a <= 1) p /\
  logistic_loss g (batch [10%nat] 5 X) (Some (per_sample [10%nat] y)) = Ok (per_sample [10%nat] v) /\ logistic_loss g (batch [10%nat] 5 X) None = Raise AssertionError /\
  logistic_new 0 None b = Raise AssertionError.
Proof.
  intros b X y LX W Ly. destruct (logistic_new 5 None b) as [g|] eqn:E; [|discriminate]. exists g.
  destruct (C133_start 5 None b g [10%nat] X y E W) as [P L]; [cbn; lia|lia|]. do 2 eexists. split; [reflexivity|]. split; [exact P|]. split; [|split; [exact L|split; reflexivity]].
  apply Forall_forall. intros a Ha. apply repeat_spec in Ha. lra.
Qed.
(* TestNewsVendorLoss.test_value: with labels only *)
Example test_newsvendor_value : forall k u th X y, List.length X = 10%nat -> widths 2 X -> exists v, nv_torch_value k u th (batch [10%nat] 2 X) (Some y) = Ok (per_sample [10%nat] v).
Proof.
  intros k u th X y L W. unfold nv_torch_value. assert (E : tmap (Rmin th) (batch [10%nat] 2 X) = batch [10%nat] 2 (map (map (Rmin th)) X)) by (unfold tmap, batch; cbn [shp dat]; rewrite concat_map; reflexivity).
  rewrite E, mean_last_batch.
  - eexists. unfold per_sample, tmap, batch. cbn [shp dat]. do 2 f_equal. rewrite !concat_singletons. rewrite <- (concat_singletons (map _ (map _ _))). reflexivity.
  - unfold widths in *. rewrite Forall_map. refine (Forall_impl _ _ W). intros x Hx. rewrite map_length. exact Hx.
  - rewrite map_length. cbn. lia.
Qed.
(* TestPortfolio *)
Example test_portfolio : forall eta alpha raw tau X, List.length raw = 5%nat -> List.length X = 10%nat -> widths 5 X ->
  (exists v, pf_forward eta alpha raw tau (batch [10%nat] 5 X) = Ok (per_sample [10%nat] v)) /\ rsum (softmax raw) = 1.
Proof.
  intros eta alpha raw tau X Lr LX W. split.
  - eexists. rewrite <- Lr. apply pf_forward_batch; [rewrite Lr; exact W|cbn; lia].
  - apply (C53_weights_are_a_portfolio raw). destruct raw; discriminate.
Qed.

(* ---------- test_guards.py ---------- *)
Section Guards.
  Import Lifecycle_Model.
  Local Open Scope string_scope.
  (* test_init: a negative radius is a ValueError for the five classes *)
  Example test_guards_init : forall e args r, args "rho" = PFloat r -> r < 0 -> init e args = Raise ValueError.
  Proof. intros e args r H N. unfold init, init_checks. rewrite H. cbn [number bind]. replace (Rltb r 0) with true by (symmetry; apply Rltb_true; exact N). reflexivity. Qed.
  (* test_rho_typing: rho set to None after the construction is a TypeError in fit, whatever the other parameters *)
  Example test_rho_typing : forall parse (e : Tuner_Model.estimator) (x : env) (s : attrs), v_data x = Ok tt -> look s "rho" = Some PNone -> snd (Lifecycle_Model.fit parse e x s) = Raise TypeError.
  Proof.
    intros parse e x s D H. destruct e; cbn [Lifecycle_Model.fit]; unfold nv_fit, pf_fit, wb_fit, lr_fit, lg_fit, bnd, lift, fit_rho, bnd, get; cbn [fst snd]; rewrite D; rewrite H; reflexivity.
  Qed.
End Guards.
