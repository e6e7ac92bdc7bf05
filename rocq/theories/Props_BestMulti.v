(* C150 for LogisticRegression with more than two classes: the best weights and intercepts exist and are unique. *)
From Coq Require Import Reals List Bool ZArith String Arith Lra Lia Psatz Sorted.
From Verif Require Import PyBase RList XReal LogMeanExp Tensor DedProg_Model Loss_Model Loss_Spec Loss_Proofs Costs_Model Costs_Proofs CostDecoder_Model OptCond_Model Samplers_Model Wrap_Model
  Estim_Model Estim_Proofs Handover_Proofs Dual_Model Dual_Spec Dual_Proofs Dual2_Proofs DualMinimax_Proofs Props_Dual2 TDual_Model TDual_Spec TDual_Proofs Props_Loss Props_TDual Props_Estim
  EstDual_Model EstDual_Spec EstDual_Proofs Props_EstDual Stationary_Proofs Tuner_Proofs Props_StationaryEst Attain Best_Proofs BestCore BestMulti_Proofs Props_Best.
Import ListNotations.
Local Open Scope R_scope.
Local Notation length := List.length.

Lemma row_label_in n k kl xs ys zs zls r z : length ys = length xs -> is_grid n (length xs) k zs -> is_grid n (length xs) kl zls -> In r (labelled_rows xs ys zs zls) -> In z (r_zeta r) ->
  In (snd z) (List.concat zls).
Proof.
  intros E [G1 F1] [G2 F2] Hr Hz. unfold labelled_rows, point_rows in Hr. apply in_map_iff in Hr. destruct Hr as (j & <- & Hj). cbn [r_zeta] in Hz.
  rewrite pairs_length in Hj by (symmetry; exact E). apply in_seq in Hj. apply in_map_iff in Hz. destruct Hz as (q & <- & Hq).
  assert (Q : exists a b, In a zs /\ In b zls /\ q = pairs a b).
  { clear -Hq. revert zls Hq. induction zs as [|a zs IH]; intros [|b zls] Hq; cbn in Hq; try contradiction. destruct Hq as [<-|Hq].
    - exists a, b. cbn. auto.
    - destruct (IH zls Hq) as (a' & b' & H1 & H2 & H3). exists a', b'. cbn. auto. }
  destruct Q as (za & zb & Ha & Hb & ->). rewrite Forall_forall in F1, F2. destruct (F1 za Ha) as [L1 W1]. destruct (F2 zb Hb) as [L2 W2].
  rewrite pair_nth by (unfold vec in *; congruence). cbn [snd]. apply in_concat. exists zb. split; [exact Hb|]. apply nth_In. unfold vec in *. lia.
Qed.
Lemma dot_unit (bs : vec) j : (j < length bs)%nat -> dot bs (slot (length bs) j [1]) = nth j bs 0.
Proof.
  intros H. pose proof (dot_slot 1 [1] eq_refl (map (fun b => [b]) bs) j) as Q.
  assert (C : List.concat (map (fun b => [b]) bs) = bs) by (clear; induction bs as [|b bs IH]; [reflexivity|cbn; rewrite IH; reflexivity]).
  rewrite C, map_length in Q. rewrite Q; [|apply Forall_map, Forall_forall; reflexivity|exact H].
  rewrite (nth_indep _ [] [0]) by (rewrite map_length; exact H). change [0] with ((fun b : R => [b]) 0). rewrite map_nth. unfold dot; cbn. ring.
Qed.
Definition class_feature (ic : bool) (K : nat) (x : vec) (j : nat) : vec := slot K j x ++ (if ic then slot K j [1] else []).
Lemma class_scores ic k wts bs x : length bs = length wts -> widths k wts -> length x = k ->
  several (map (class_feature ic (length wts) x) (seq 0 (length wts))) (List.concat (if ic then [List.concat wts; bs] else [List.concat wts])) = scores wts (if ic then bs else map (fun _ => 0) bs) x.
Proof.
  intros Lb W Lx. unfold several. rewrite map_map. set (biases := if ic then bs else map (fun _ => 0) bs).
  assert (Lbb : length biases = length wts) by (unfold biases; destruct ic; rewrite ?map_length; exact Lb).
  assert (E : scores wts biases x = map (fun j => dot x (nth j wts []) + nth j biases 0) (seq 0 (length wts))).
  { unfold scores. clearbody biases. clear -Lbb. revert biases Lbb. induction wts as [|w wts IH]; intros [|b biases] L; try discriminate; [reflexivity|]. cbn [map2 length seq map nth]. f_equal.
    rewrite <- seq_shift, map_map. rewrite (IH biases) by (injection L; auto). reflexivity. }
  refine (eq_trans _ (eq_sym E)). apply map_ext_in. intros j Hj. apply in_seq in Hj. assert (Hjl : (j < length wts)%nat) by (unfold vec in *; lia).
  unfold class_feature, biases. destruct ic; cbn [List.concat]; rewrite !app_nil_r.
  - rewrite dot_app; [|rewrite (slot_length _ _ _ Hjl), (concat_widths k) by exact W; unfold vec in *; congruence]. rewrite (dot_slot k) by assumption.
    pose proof (dot_unit bs j) as U. rewrite Lb in U. unfold vec in *. rewrite U by exact Hjl. rewrite (dot_comm x). reflexivity.
  - rewrite (dot_slot k) by assumption. rewrite (dot_comm x).
    assert (Z : forall l i, nth i (map (fun _ : R => 0) l) 0 = 0) by (induction l as [|b l IHl]; intros [|i]; try reflexivity; apply IHl). rewrite Z. symmetry. apply Rplus_0_r.
Qed.

(* LogisticRegression with more than two classes, with or without intercepts; the labels of the samples are not negative (they are rows
   of zeros and one one unless the sampler moves labels). *)
Theorem C150_multinomial pf a X y d t k classes : lg_dispatch pf a X y = Ok (FTorch d t) ->
  StronglySorted Z.lt classes -> (forall v, In v y <-> In v classes) -> (2 < length classes)%nat ->
  X <> [] -> widths k X -> length y = length X -> 0 < lg_rho a -> a_imp_samp d = false -> 0 < lg_l2_reg a ->
  let K := length classes in
  let ys := map (fun v => map (fun c => if Z.eq_dec v c then 1 else 0) classes) y in
  let biases bs := if lg_fit_intercept a then bs else map (fun _ => 0) bs in
  let trained wts bs := if lg_fit_intercept a then [List.concat wts; bs] else [List.concat wts] in
  let model wts bs := length wts = K /\ widths k wts /\ length bs = K in
  exists c, tcost_of (a_cost d) = Some c /\
  forall n zs zls e s grads, is_grid n (length X) k zs -> is_grid n (length X) K zls -> zs <> [] -> a_epsilon d = Fin e -> 0 < e ->
  (forall l, In l (List.concat zls) -> Forall (Rle 0) l) ->
  let rows := labelled_rows X ys zs zls in
  let value lam wts bs := t_compute_dual (mc_call wts (biases bs) k) (wrapped_of d [] (trained wts bs)) c s grads (dual_of d (tc_power c) e lam)
                            (Tensor.batch [length X] k X) (Some (Tensor.batch [length X] K ys)) (grid n (length X) k zs) (Some (grid n (length X) K zls)) in
  (forall lam, exists wts bs v, model wts bs /\ value lam wts bs = Ok (Scalar (Fin v)) /\
     forall wts' bs', model wts' bs' -> exists v', value lam wts' bs' = Ok (Scalar (Fin v')) /\ v <= v' /\ (v' = v -> wts' = wts /\ biases bs' = biases bs)) /\
  (forall A, adversary n A rows -> adv_mean (pt_cost c) A rows < Rpower (lg_rho a) (tc_power c) ->
   exists lam wts bs v, 0 <= lam /\ model wts bs /\ value lam wts bs = Ok (Scalar (Fin v)) /\
     forall l wts' bs', 0 <= l -> model wts' bs' -> exists v', value l wts' bs' = Ok (Scalar (Fin v')) /\ v <= v' /\ (v' = v -> wts' = wts /\ biases bs' = biases bs)).
Proof.
  intros H Srt Hy Hk Nx W E Hr Hi Hl2 K ys biases trained model. set (params := fun wts bs => List.concat (trained wts bs)).
  set (LL := fun wts bs (x l : vec) => - rsum (map2 (fun s q => q * (s - ln (rsum (map exp (scores wts (biases bs) x))))) (scores wts (biases bs) x) l) + penalty (lg_l2_reg a) (params wts bs)).
  assert (T : forall wts bs, model wts bs -> trains_labelled d (mc_call wts (biases bs) k) (wrapped_of d [] (trained wts bs)) k K (LL wts bs) X ys (lg_rho a)).
  { intros wts bs (Lw & Ww & Lb). apply (C113_logistic_multi pf a X y d t wts bs k classes); auto. }
  assert (M0 : model (repeat (repeat 0 k) K) (repeat 0 K)).
  { split; [apply repeat_length|]. split; [|apply repeat_length]. apply Forall_forall. intros w Hw. apply repeat_spec in Hw. rewrite Hw. apply repeat_length. }
  destruct (T _ _ M0) as (c & Hc & _). exists c. split; [exact Hc|].
  intros n zs zls e s grads G G' Nz He Hep Hpos rows value.
  assert (Ey : length ys = length X) by (unfold ys; rewrite map_length; exact E).
  pose proof (rows_ok n k K X ys zs zls Ey Nx G G' Nz) as Hb. fold rows in Hb.
  set (feats := fun z : vec * vec => map (class_feature (lg_fit_intercept a) K (fst z)) (seq 0 K)).
  set (base := fun (th : vec) (z : vec * vec) => ce (snd z) (several (feats z) th)).
  assert (V : forall l wts bs, model wts bs -> value l wts bs = Ok (Scalar (Fin (obj (vec * vec) (pt_cost c) base rows (lg_rho a) e (tc_power c) (lg_l2_reg a) l (params wts bs))))).
  { intros l wts bs M. destruct (T wts bs M) as (c' & Hc' & Q). rewrite Hc in Hc'. injection Hc' as <-.
    destruct (Q n zs zls e l grads G G' Nz He ltac:(lra)) as [Q1 _]. specialize (Q1 Hi s). unfold value. refine (eq_trans Q1 _).
    rewrite (robust_rows _ _ _ _ _ _ X ys zs zls n k K Ey G G' Nz). do 3 f_equal. fold rows. unfold obj, objective. f_equal. apply rmean_map_ext. intros r Hrr. unfold soft, pen. f_equal. apply map_ext_in. intros z Hz.
    destruct (row_zeta n k K X ys zs zls r z Ey G G' Hrr Hz) as [Z1 _]. f_equal. unfold ridge, LL. rewrite penalty_pos by exact Hl2. f_equal. unfold base, ce, lse, feats.
    destruct M as (Lw & Ww & Lb). unfold params, trained. pose proof (class_scores (lg_fit_intercept a) k wts bs (fst z) ltac:(congruence) Ww Z1) as CS. rewrite Lw in CS. rewrite CS. reflexivity. }
  set (dd := (K * k + (if lg_fit_intercept a then K else 0))%nat).
  assert (Lp : forall wts bs, model wts bs -> length (params wts bs) = dd).
  { intros wts bs (Lw & Ww & Lb). unfold params, trained, dd. pose proof (concat_widths k wts Ww) as Lc. unfold vec in *. rewrite Lw in Lc. destruct (lg_fit_intercept a); cbn [List.concat]; rewrite app_nil_r, ?app_length; unfold vec in *; lia. }
  assert (Split : forall th : vec, length th = dd -> exists wts bs, th = params wts bs /\ model wts bs).
  { intros th Lt. unfold dd, params, trained in *. destruct (lg_fit_intercept a); cbn [List.concat].
    - destruct (unconcat k K (firstn (K * k) th)) as (wts & Lw & Ww & Eq); [rewrite firstn_length; unfold vec in *; lia|]. exists wts, (skipn (K * k) th). rewrite app_nil_r, <- Eq, firstn_skipn.
      split; [reflexivity|]. split; [exact Lw|]. split; [exact Ww|]. rewrite skipn_length. unfold vec in *. lia.
    - destruct (unconcat k K th) as (wts & Lw & Ww & Eq); [unfold vec in *; lia|]. exists wts, (repeat 0 K). rewrite app_nil_r. split; [exact Eq|]. split; [exact Lw|]. split; [exact Ww|apply repeat_length]. }
  assert (Inj : forall wts bs wts' bs', model wts bs -> model wts' bs' -> params wts' bs' = params wts bs -> wts' = wts /\ biases bs' = biases bs).
  { intros wts bs wts' bs' (Lw & Ww & Lb) (Lw' & Ww' & Lb') Eq. unfold params, trained, biases in *. destruct (lg_fit_intercept a); cbn [List.concat] in Eq; rewrite !app_nil_r in Eq.
    - apply app_inj_len in Eq; [|rewrite !(concat_widths k) by assumption; unfold vec in *; congruence]. destruct Eq as [E1 E2]. split; [apply (concat_inj k); auto; unfold vec in *; congruence|exact E2].
    - split; [apply (concat_inj k); auto; unfold vec in *; congruence|]. assert (Z : forall u v : vec, length u = length v -> map (fun _ : R => 0) u = map (fun _ => 0) v) by (induction u as [|b u IHu]; intros [|b0 v] L; try discriminate; [reflexivity|]; cbn; f_equal; apply IHu; injection L; auto). apply Z. unfold vec in *; congruence. }
  assert (Hf : forall r z, In r rows -> In z (r_zeta r) -> Forall (fun f => length f = dd) (feats z) /\ Forall (Rle 0) (snd z)).
  { intros r z Hrr Hz. destruct (row_zeta n k K X ys zs zls r z Ey G G' Hrr Hz) as [Z1 _]. split; [|apply Hpos; apply (row_label_in n k K X ys zs zls r z Ey G G' Hrr Hz)].
    unfold feats, dd, class_feature. apply Forall_map, Forall_forall. intros j Hj. apply in_seq in Hj. rewrite app_length, slot_length by lia. unfold vec in *. rewrite Z1. f_equal. destruct (lg_fit_intercept a); [rewrite slot_length by lia; cbn; lia|reflexivity]. }
  pose proof (fun A => several_best (fun z : vec * vec => snd z) feats (pt_cost c) n rows dd (lg_rho a) e (tc_power c) (lg_l2_reg a) A Hb Hr Hep Hl2 Hf) as SB. cbv zeta in SB. fold base in SB.
  split.
  - intros lam. pose proof (best_adversary (vec * vec) (fun z => 0) (pt_cost c) n lam e rows Hb) as HA0. destruct (proj1 (SB _ HA0) lam) as (th & Lt & Q).
    destruct (Split th Lt) as (wts & bs & -> & M). exists wts, bs. eexists. split; [exact M|]. split; [apply V; exact M|].
    intros wts' bs' M'. eexists. split; [apply V; exact M'|]. destruct (Q (params wts' bs') (Lp wts' bs' M')) as [Q1 Q2]. split; [exact Q1|]. intros Eq. apply Inj; auto.
  - intros A HA Gap. destruct (proj2 (SB A HA) Gap) as (lam & th & Hlam & Lt & Q).
    destruct (Split th Lt) as (wts & bs & -> & M). exists lam, wts, bs. eexists. split; [exact Hlam|]. split; [exact M|]. split; [apply V; exact M|].
    intros l wts' bs' Hl M'. eexists. split; [apply V; exact M'|]. destruct (Q l (params wts' bs') Hl (Lp wts' bs' M')) as [Q1 Q2]. split; [exact Q1|]. intros Eq. apply Inj; auto.
Qed.
Print Assumptions C150_multinomial.

(* three classes, each point with itself and its label as the only sample *)
Definition lg_ridge : lg_args :=
  {| lg_rho := 1 / 100; lg_l2_reg := 1; lg_fit_intercept := true; lg_cost := "t-NLC-2-2"; lg_solver_name := "entropic_torch_pre";
     lg_solver_reg := Some (1 / 100); lg_sampler_reg := None; lg_lr := None; lg_n_zeta := 10; lg_seed := 0; lg_n_iter := None |}.
Example C150_multinomial_case : let X := [[1]; [3]; [0]] in let y := [9; 2; 5]%Z in let classes := [2; 5; 9]%Z in
  let ys := map (fun v => map (fun c => if Z.eq_dec v c then 1 else 0) classes) y in let zs := [X] in let zls := [ys] in let A := [[1]; [1]; [1]] in
  exists d t c e, lg_dispatch read lg_ridge X y = Ok (FTorch d t) /\ StronglySorted Z.lt classes /\ (forall v, In v y <-> In v classes) /\ widths 1 X /\ 0 < lg_rho lg_ridge /\ a_imp_samp d = false /\ 0 < lg_l2_reg lg_ridge /\
    tcost_of (a_cost d) = Some c /\ is_grid 1 3 1 zs /\ is_grid 1 3 3 zls /\ a_epsilon d = Fin e /\ 0 < e /\ (forall l, In l (List.concat zls) -> Forall (Rle 0) l) /\
    let rows := labelled_rows X ys zs zls in adversary 1 A rows /\ adv_mean (pt_cost c) A rows < Rpower (lg_rho lg_ridge) (tc_power c).
Proof.
  cbv zeta. destruct (decode_22 read eq_refl) as [c0 Hc0].
  assert (Ex : exists d t, lg_dispatch read lg_ridge [[1]; [3]; [0]] [9; 2; 5]%Z = Ok (FTorch d t) /\ a_imp_samp d = false /\ tcost_of (a_cost d) = Some (TNLC (PFin 2) 2 (KFin 100000000))).
  { unfold lg_dispatch. assert (T : exists t, lg_targets [9; 2; 5]%Z = Ok t) by (eexists; reflexivity). destruct T as [t ->].
    cbn [bind lg_cost lg_ridge]. rewrite Hc0. cbn [bind lg_solver_name lg_ridge]. change (String.eqb "entropic_torch_pre" "entropic") with false. change (String.eqb "entropic_torch_pre" "dedicated") with false.
    change (contains "torch" "entropic_torch_pre") with true. cbv iota.
    match goal with |- context [dualize read ?u] => destruct (dualize_22 read u t eq_refl eq_refl eq_refl) as [d Hd]; [apply sigma_none_pos|]; rewrite Hd; destruct (ridge_dualized read u d eq_refl eq_refl eq_refl Hd) as [I C] end.
    exists d. eexists. split; [reflexivity|]. split; assumption. }
  destruct Ex as (d & t & Ed & I & C). exists d, t, (TNLC (PFin 2) 2 (KFin 100000000)).
  destruct (lg_received _ _ _ _ _ _ Ed) as (ts & _ & _ & Q).
  exists (1 / 100). split; [exact Ed|]. split; [repeat constructor; lia|]. split; [intros v; simpl; intuition|]. split; [repeat constructor|]. split; [cbn; lra|]. split; [exact I|]. split; [cbn; lra|]. split; [exact C|].
  split; [split; [reflexivity|]; repeat (apply Forall_cons; [split; [reflexivity|repeat constructor]|]); constructor|].
  split; [split; [reflexivity|]; repeat (apply Forall_cons; [split; [reflexivity|repeat constructor]|]); constructor|].
  split; [apply (r_eps _ _ _ _ _ _ _ _ _ _ _ Q); reflexivity|]. split; [lra|].
  split. { intros l Hl. cbn [List.concat app map] in Hl. repeat (destruct Hl as [<-|Hl]; [repeat (apply Forall_cons; [destruct (Z.eq_dec _ _); lra|]); constructor|]). destruct Hl. }
  split.
  - split; [reflexivity|]. repeat (apply Forall_cons; [split; [reflexivity|split; [repeat (apply Forall_cons; [lra|]); constructor|cbn; lra]]|]). constructor.
  - assert (Z : forall p, pt_cost (TNLC (PFin 2) 2 (KFin 100000000)) p p = 0).
    { intros [a l]. destruct (C57_weber_linear_logistic_portfolio read [[1]; [3]] eq_refl eq_refl) as (_ & E & _). destruct (E [2; 5]) as (d' & Ed' & _).
      rewrite (proj2 (proj2 (C113_default_cost read [[1]; [3]] [2; 5] d' _ eq_refl (or_introl Ed')))).
      assert (S0 : forall u : vec, sqnorm (vsub u u) = 0) by (induction u as [|b u IH]; [reflexivity|]; change (vsub (b :: u) (b :: u)) with ((b - b) :: vsub u u); rewrite sqnorm_cons, IH; ring).
      rewrite !S0, sqrt_0. field. }
    replace (adv_mean _ _ _) with 0; [apply exp_pos|]. unfold adv_mean, rmean, labelled_rows, point_rows. cbn -[pt_cost Z.eq_dec]. rewrite !Z. field.
Qed.
(* two classes *)
Example C150_logistic_case : let X := [[1]; [3]] in let y := [7; 3]%Z in
  let ys := map (fun v => [if Z.eq_dec v 3 then -1 else 1]) y in let zs := [X] in let zls := [ys] in let A := [[1]; [1]] in
  exists d t c e, lg_dispatch read lg_ridge X y = Ok (FTorch d t) /\ (forall v, In v y <-> v = 3%Z \/ v = 7%Z) /\ widths 1 X /\ 0 < lg_rho lg_ridge /\ a_imp_samp d = false /\ 0 < lg_l2_reg lg_ridge /\
    tcost_of (a_cost d) = Some c /\ is_grid 1 2 1 zs /\ is_grid 1 2 1 zls /\ a_epsilon d = Fin e /\ 0 < e /\
    let rows := labelled_rows X ys zs zls in adversary 1 A rows /\ adv_mean (pt_cost c) A rows < Rpower (lg_rho lg_ridge) (tc_power c).
Proof.
  cbv zeta. destruct (decode_22 read eq_refl) as [c0 Hc0].
  assert (Ex : exists d t, lg_dispatch read lg_ridge [[1]; [3]] [7; 3]%Z = Ok (FTorch d t) /\ a_imp_samp d = false /\ tcost_of (a_cost d) = Some (TNLC (PFin 2) 2 (KFin 100000000))).
  { unfold lg_dispatch. assert (T : exists t, lg_targets [7; 3]%Z = Ok t) by (eexists; reflexivity). destruct T as [t ->].
    cbn [bind lg_cost lg_ridge]. rewrite Hc0. cbn [bind lg_solver_name lg_ridge]. change (String.eqb "entropic_torch_pre" "entropic") with false. change (String.eqb "entropic_torch_pre" "dedicated") with false.
    change (contains "torch" "entropic_torch_pre") with true. cbv iota.
    match goal with |- context [dualize read ?u] => destruct (dualize_22 read u t eq_refl eq_refl eq_refl) as [d Hd]; [apply sigma_none_pos|]; rewrite Hd; destruct (ridge_dualized read u d eq_refl eq_refl eq_refl Hd) as [I C] end.
    exists d. eexists. split; [reflexivity|]. split; assumption. }
  destruct Ex as (d & t & Ed & I & C). exists d, t, (TNLC (PFin 2) 2 (KFin 100000000)).
  destruct (lg_received _ _ _ _ _ _ Ed) as (ts & _ & _ & Q).
  exists (1 / 100). split; [exact Ed|]. split; [intros v; simpl; intuition|]. split; [repeat constructor|]. split; [cbn; lra|]. split; [exact I|]. split; [cbn; lra|]. split; [exact C|].
  split; [split; [reflexivity|]; repeat (apply Forall_cons; [split; [reflexivity|repeat constructor]|]); constructor|].
  split; [split; [reflexivity|]; repeat (apply Forall_cons; [split; [reflexivity|repeat constructor]|]); constructor|].
  split; [apply (r_eps _ _ _ _ _ _ _ _ _ _ _ Q); reflexivity|]. split; [lra|].
  split.
  - split; [reflexivity|]. repeat (apply Forall_cons; [split; [reflexivity|split; [repeat (apply Forall_cons; [lra|]); constructor|cbn; lra]]|]). constructor.
  - assert (Z : forall p, pt_cost (TNLC (PFin 2) 2 (KFin 100000000)) p p = 0).
    { intros [a l]. destruct (C57_weber_linear_logistic_portfolio read [[1]; [3]] eq_refl eq_refl) as (_ & E & _). destruct (E [2; 5]) as (d' & Ed' & _).
      rewrite (proj2 (proj2 (C113_default_cost read [[1]; [3]] [2; 5] d' _ eq_refl (or_introl Ed')))).
      assert (S0 : forall u : vec, sqnorm (vsub u u) = 0) by (induction u as [|b u IH]; [reflexivity|]; change (vsub (b :: u) (b :: u)) with ((b - b) :: vsub u u); rewrite sqnorm_cons, IH; ring).
      rewrite !S0, sqrt_0. field. }
    replace (adv_mean _ _ _) with 0; [apply exp_pos|]. unfold adv_mean, rmean, labelled_rows, point_rows. cbn -[pt_cost Z.eq_dec]. rewrite !Z. field.
Qed.
