(* Proofs about wrap_problem.py. *)
From Coq Require Import Reals List Bool ZArith String Lra Lia.
From Verif Require Import PyBase RList XReal CostDecoder_Model OptCond_Model Samplers_Model Samplers_Spec Samplers_Proofs Wrap_Model.
Import ListNotations.
Local Open Scope R_scope.

Lemma auto_sigma rho : 0 < expert_sigma rho None SIGMA_FACTOR /\
  (0 < rho -> expert_sigma rho None SIGMA_FACTOR = rho / 2).
Proof.
  unfold expert_sigma, SIGMA_FACTOR. destruct (Rltb 0 rho) eqn:E.
  - apply Rltb_true in E. split; [nra|]. intros _. lra.
  - apply Rltb_false in E. split; lra.
Qed.

Lemma auto_epsilon rho p : 0 <= rho -> 1 <= p ->
  exists e, expert_epsilon rho (Fin p) None EPSILON_SIGMA_FACTOR SIGMA_FACTOR = Fin e /\ 1 / 10000000 <= e.
Proof.
  intros Hr Hp. unfold expert_epsilon, EPSILON_SIGMA_FACTOR.
  assert (H : exists q, pow_t rho (p - 1) = Fin q).
  { unfold pow_t. destruct (Rltb 0 rho) eqn:E; [eauto|]. apply Rltb_false in E. assert (rho = 0) by lra. subst rho.
    destruct (Reqb (p - 1) 0) eqn:E0; [eauto|]. apply Reqb_false in E0.
    replace (Reqb 0 0) with true by (symmetry; apply Reqb_true; reflexivity).
    replace (Rltb 0 (p - 1)) with true by (symmetry; apply Rltb_true; lra). eauto. }
  destruct H as [q ->]. cbn [xmul xmax]. set (a := 1 / 100 * Rpower SIGMA_FACTOR p * q).
  cbn [xlt]. destruct (Rltb a (1 / 10000000)) eqn:E.
  - eexists; split; [reflexivity|lra].
  - apply Rltb_false in E. eexists; split; [reflexivity|exact E].
Qed.

(* the value for the two powers that have a sampler *)
Lemma auto_epsilon_1 rho : 0 <= rho ->
  expert_epsilon rho (Fin 1) None EPSILON_SIGMA_FACTOR SIGMA_FACTOR = Fin (1 / 200).
Proof.
  intros Hr. unfold expert_epsilon, EPSILON_SIGMA_FACTOR, SIGMA_FACTOR.
  assert (E : pow_t rho (1 - 1) = Fin 1).
  { replace (1 - 1) with 0 by ring. unfold pow_t. destruct (Rltb 0 rho) eqn:E.
    - apply Rltb_true in E. rewrite Rpower_O by exact E. reflexivity.
    - replace (Reqb 0 0) with true by (symmetry; apply Reqb_true; reflexivity). reflexivity. }
  rewrite E. rewrite Rpower_1 by lra. cbn [xmul xmax xlt].
  replace (Rltb (1 / 100 * / 2 * 1) (1 / 10000000)) with false by (symmetry; apply Rltb_false; lra). f_equal; lra.
Qed.

Lemma auto_epsilon_2 rho : 0 <= rho ->
  expert_epsilon rho (Fin 2) None EPSILON_SIGMA_FACTOR SIGMA_FACTOR = Fin (Rmax (rho / 400) (1 / 10000000)).
Proof.
  intros Hr. unfold expert_epsilon, EPSILON_SIGMA_FACTOR, SIGMA_FACTOR.
  assert (E : pow_t rho (2 - 1) = Fin rho).
  { replace (2 - 1) with 1 by ring. unfold pow_t. destruct (Rltb 0 rho) eqn:E.
    - apply Rltb_true in E. rewrite Rpower_1 by exact E. reflexivity.
    - apply Rltb_false in E. assert (rho = 0) by lra. subst.
      replace (Reqb 1 0) with false by (symmetry; apply Reqb_false; lra).
      replace (Reqb 0 0) with true by (symmetry; apply Reqb_true; reflexivity).
      replace (Rltb 0 1) with true by (symmetry; apply Rltb_true; lra). reflexivity. }
  rewrite E. replace 2 with (1 + 1) at 2 by ring. rewrite Rpower_plus, Rpower_1 by lra. cbn [xmul xmax xlt].
  replace (1 / 100 * (/ 2 * / 2) * rho) with (rho / 400) by field.
  unfold Rmax. destruct (Rle_dec (rho / 400) (1 / 10000000)) as [L|L].
  - destruct (Rltb (rho / 400) (1 / 10000000)) eqn:E1; [reflexivity|]. apply Rltb_false in E1. f_equal; lra.
  - replace (Rltb (rho / 400) (1 / 10000000)) with false by (symmetry; apply Rltb_false; lra). reflexivity.
Qed.

Lemma given_unchanged rho p s e :
  expert_hyperparams rho p (Some e) EPSILON_SIGMA_FACTOR (Some s) SIGMA_FACTOR = (s, Fin e) /\
  fst (expert_hyperparams rho p None EPSILON_SIGMA_FACTOR (Some s) SIGMA_FACTOR) = s /\
  snd (expert_hyperparams rho p (Some e) EPSILON_SIGMA_FACTOR None SIGMA_FACTOR) = Fin e.
Proof. repeat split. Qed.

Section Dual.
  Variable pyfloat : string -> option xr.
  Notation dualize := (dualize pyfloat).

  Lemma cost_from_parse_power pc c : cost_from_parse_torch xr x_ge0 pc = Ok c ->
    c_power c = p_power pc /\ c_p c = p_type pc /\
    ((c_kind c = NC /\ c_kappa c = None) \/ (c_kind c = NLC /\ exists k, c_kappa c = Some k /\ x_ge0 k = true)).
  Proof.
    unfold cost_from_parse_torch. destruct (String.eqb (p_id pc) "NC").
    - unfold NormCost. intros H; inversion H; subst; simpl. auto.
    - destruct (String.eqb (p_id pc) "NLC"); [|discriminate]. unfold NormLabelCost.
      destruct (x_ge0 (p_kappa pc)) eqn:E; [|discriminate]. simpl. intros H; inversion H; subst; simpl. eauto 10.
  Qed.

  Lemma scost_attrs c : sc_p (scost_of c) = c_p c /\ sc_power (scost_of c) = c_power c.
  Proof. unfold scost_of. destruct (c_kind c), (c_kappa c); auto. Qed.

  (* dividing a positive number by a non-negative kappa leaves a positive scale *)
  Lemma div_pos e k : 0 < e -> x_ge0 k = true -> xeq k PInf = false -> xlt (Fin 0) (xdiv (Fin e) k) = true.
  Proof.
    intros He Hk Hi. destruct k as [k| | |]; cbn in Hk, Hi; try discriminate.
    unfold x_ge0, xle in Hk. cbn in Hk. unfold xdiv. destruct (Reqb k 0) eqn:E.
    - replace (Reqb e 0) with false by (symmetry; apply Reqb_false; lra).
      replace (Rltb e 0) with false by (symmetry; apply Rltb_false; lra). reflexivity.
    - apply Reqb_false in E. apply Bool.orb_prop in Hk as [Hk|Hk].
      + apply Rltb_true in Hk. cbn. apply Rltb_true. apply Rdiv_lt_0_compat; assumption.
      + apply Reqb_true in Hk. congruence.
  Qed.

  Lemma labels_ok c y s pc : cost_from_parse_torch xr x_ge0 pc = Ok c -> 0 < s -> supported (c_p c) (c_power c) ->
    exists l, sampler_labels (scost_of c) y (Some s) = Ok (Some l).
  Proof.
    intros Hc Hs Hsup. apply cost_from_parse_power in Hc as (_ & _ & [[K1 K2]|(K1 & k & K2 & K3)]).
    - unfold scost_of. rewrite K1. simpl. eauto.
    - unfold scost_of. rewrite K1, K2. unfold sampler_labels. destruct (xeq k PInf) eqn:Ek; [eauto|].
      apply family_some in Hsup. destruct (family (c_p c) (c_power c)) as [f|]; [|congruence].
      rewrite loc_scale_ok; [simpl; eauto|]. destruct (xeq (c_power c) (Fin 1)).
      + apply div_pos; auto.
      + cbn. apply Rltb_true. exact Hs.
  Qed.

  (* exactly when the construction succeeds, once the specification is accepted *)
  Lemma dualize_outcome u pc c :
    parse_code_torch xr pyfloat (Fin 2) dk (u_cost u) (match u_labels u with None => false | Some _ => true end) = Ok pc ->
    cost_from_parse_torch xr x_ge0 pc = Ok c ->
    0 < expert_sigma (u_rho u) (u_sigma u) SIGMA_FACTOR ->
    (supported (c_p c) (c_power c) -> exists a, dualize u = Ok a /\ a_cost a = c /\ built (a_sampler a) /\
       cs_sigma (a_sampler a) = Some (expert_sigma (u_rho u) (u_sigma u) SIGMA_FACTOR) /\ cs_seed (a_sampler a) = u_seed u /\
       means (a_sampler a) = (u_xi u, u_labels u) /\
       a_epsilon a = expert_epsilon (u_rho u) (c_power c) (u_epsilon u) EPSILON_SIGMA_FACTOR SIGMA_FACTOR /\
       (a_imp_samp a = true <-> u_imp_samp u = true /\ c_power c = Fin 2 /\ c_p c = Fin 2)) /\
    (~ supported (c_p c) (c_power c) -> dualize u = Raise NotImplementedError).
  Proof.
    intros Hp Hc Hs. unfold Wrap_Model.dualize. rewrite Hp. cbn [bind]. unfold expert_hyperparams.
    rewrite Hc. cbn [bind]. destruct (scost_attrs c) as [A1 A2].
    destruct (cost_from_parse_power pc c Hc) as (W1 & W2 & _).
    destruct (sampler_data_ok (scost_of c) (u_xi u) (Some (expert_sigma (u_rho u) (u_sigma u) SIGMA_FACTOR))) as [D1 D2]; [exact Hs|].
    rewrite A1, A2 in D1, D2. split.
    - intros Hsup. destruct (D1 Hsup) as [d Hd].
      assert (Himp : forall q, (decide_on_impsamp q pc = true <-> q = true /\ c_power c = Fin 2 /\ c_p c = Fin 2)).
      { intros q. unfold decide_on_impsamp, can_imp_samp, x_is_two. rewrite !Bool.andb_true_iff, !xeq_fin, W1, W2. tauto. }
      destruct (u_labels u) as [y|] eqn:Ey.
      + destruct (labels_ok c y (expert_sigma (u_rho u) (u_sigma u) SIGMA_FACTOR) pc Hc Hs Hsup) as [l Hl].
        unfold labeled_init at 1. rewrite Hd. cbn [bind]. rewrite Hl. cbn [bind]. eexists. split; [reflexivity|].
        cbn [a_cost a_sampler a_epsilon a_imp_samp cs_sigma cs_seed power_from_parsed_spec]. split; [reflexivity|].
        split; [exists (scost_of c), (u_xi u), (Some (expert_sigma (u_rho u) (u_sigma u) SIGMA_FACTOR)), (u_seed u); right; exists y;
                unfold labeled_init; rewrite Hd; cbn [bind]; rewrite Hl; reflexivity|].
        split; [reflexivity|]. split; [reflexivity|]. split.
        { unfold means. cbn. destruct (data_reset _ _ _ _ (u_xi u) Hd) as (_ & _ & _ & _ & ->).
          destruct (labels_reset _ _ _ _ y Hl) as (l1 & _ & E & _ & _ & _ & <-). inversion E; subst. reflexivity. }
        split; [rewrite W1; reflexivity|apply Himp].
      + unfold nolabels_init at 1. rewrite Hd. cbn [bind]. eexists. split; [reflexivity|].
        cbn [a_cost a_sampler a_epsilon a_imp_samp cs_sigma cs_seed power_from_parsed_spec]. split; [reflexivity|].
        split; [exists (scost_of c), (u_xi u), (Some (expert_sigma (u_rho u) (u_sigma u) SIGMA_FACTOR)), (u_seed u); left;
                unfold nolabels_init; rewrite Hd; reflexivity|].
        split; [reflexivity|]. split; [reflexivity|]. split.
        { unfold means. cbn. destruct (data_reset _ _ _ _ (u_xi u) Hd) as (_ & _ & _ & _ & ->). reflexivity. }
        split; [rewrite W1; reflexivity|apply Himp].
    - intros Hn. specialize (D2 Hn). destruct (u_labels u) as [y|].
      + unfold labeled_init. rewrite D2. reflexivity.
      + unfold nolabels_init. rewrite D2. reflexivity.
  Qed.

  (* the defaults always build a loss *)
  Lemma dualize_default rho xi y : exists a, dualize (default_args rho xi y) = Ok a /\
    a_post a = true /\ a_n_iter a = SPair 200 2800 /\ a_n_samples a = 10%Z /\ cs_seed (a_sampler a) = Some 42%Z /\
    a_imp_samp a = true /\ means (a_sampler a) = (xi, y) /\ c_p (a_cost a) = Fin 2 /\ c_power (a_cost a) = Fin 2 /\
    c_kind (a_cost a) = (match y with None => NC | Some _ => NLC end).
  Proof.
    set (hl := match y with None => false | Some _ => true end).
    set (pc := mkParsed "t"%string (if hl then "NLC" else "NC")%string (Fin 2) (Fin 2) dk).
    assert (Hc : exists c, cost_from_parse_torch xr x_ge0 pc = Ok c /\ c_p c = Fin 2 /\ c_power c = Fin 2 /\
                           c_kind c = match y with None => NC | Some _ => NLC end).
    { unfold cost_from_parse_torch, pc. cbn [p_id]. unfold hl. destruct y.
      - cbn. unfold NormLabelCost. cbn [p_kappa p_type p_power].
        replace (x_ge0 dk) with true; [cbn; eexists; repeat split; reflexivity|].
        unfold x_ge0, dk, xle. cbn [xlt]. replace (Rltb 0 100000000) with true by (symmetry; apply Rltb_true; lra). reflexivity.
      - cbn. eexists; repeat split; reflexivity. }
    destruct Hc as (c & Hc & C1 & C2 & C3).
    destruct (dualize_outcome (default_args rho xi y) pc c) as [H _]; [reflexivity|exact Hc|apply auto_sigma|].
    assert (Hsup : supported (c_p c) (c_power c)) by (right; auto). destruct (H Hsup) as (a & Ha & A1 & _ & _ & A4 & A5 & _ & A7).
    exists a. split; [exact Ha|]. rewrite A1.
    assert (E : a_post a = true /\ a_n_iter a = SPair 200 2800 /\ a_n_samples a = 10%Z).
    { unfold Wrap_Model.dualize in Ha. cbn [default_args u_cost u_labels u_post u_n_iter u_n_samples parse_code_torch bind] in Ha.
      destruct (expert_hyperparams _ _ _ _ _ _) as [sg ep]. destruct (cost_from_parse_torch _ _ _); [|discriminate]. cbn [bind] in Ha.
      destruct y; cbn [default_args u_labels] in Ha.
      - destruct (labeled_init _ _ _ _ _); [|discriminate]. cbn [bind] in Ha. inversion Ha; subst; auto.
      - destruct (nolabels_init _ _ _ _); [|discriminate]. cbn [bind] in Ha. inversion Ha; subst; auto. }
    destruct E as (E1 & E2 & E3). repeat split; auto. apply A7. auto.
  Qed.
End Dual.

(* ---------- label noise ---------- *)

Definition label_scale (p w k : xr) (y : batch) (e : R) : option xr :=
  match sampler_labels (SNLC p w k) y (Some e) with
  | Ok (Some (LocScale _ _ s)) => Some s
  | _ => None
  end.

Lemma label_scale_1 p k y e : 0 < e -> 0 < k -> (p = Fin 1 \/ p = Fin 2 \/ p = PInf) ->
  label_scale p (Fin 1) (Fin k) y e = Some (Fin (e / k)).
Proof.
  intros He Hk Hp. unfold label_scale, sampler_labels. cbn [xeq].
  assert (Hf : family p (Fin 1) <> None) by (apply family_some; left; auto).
  destruct (family p (Fin 1)) as [f|]; [|congruence].
  replace (Reqb 1 1) with true by (symmetry; apply Reqb_true; reflexivity). cbn [xdiv eps_default].
  replace (Reqb k 0) with false by (symmetry; apply Reqb_false; lra).
  rewrite loc_scale_ok; [reflexivity|]. cbn. apply Rltb_true. apply Rdiv_lt_0_compat; assumption.
Qed.

Lemma label_scale_2 k y e : 0 < e -> xeq k PInf = false ->
  label_scale (Fin 2) (Fin 2) k y e = Some (Fin e).
Proof.
  intros He Hk. unfold label_scale, sampler_labels. rewrite Hk. unfold family. cbn [xeq].
  replace (Reqb 2 1) with false by (symmetry; apply Reqb_false; lra).
  replace (Reqb 2 2) with true by (symmetry; apply Reqb_true; reflexivity). cbn [eps_default].
  rewrite loc_scale_ok; [reflexivity|]. cbn. apply Rltb_true. exact He.
Qed.
