(* Proofs about the samplers. *)
From Coq Require Import Reals List Bool ZArith Lra Lia.
From Verif Require Import PyBase RList XReal Samplers_Model Samplers_Spec.
Import ListNotations.
Local Open Scope R_scope.

(* ---------- C41: cost samplers ---------- *)

Lemma loc_scale_inv f loc s d : loc_scale f loc s = Ok d -> d = LocScale f loc s /\ xlt (Fin 0) s = true.
Proof. unfold loc_scale. destruct (xlt (Fin 0) s) eqn:E; [|discriminate]. intros H; inversion H; auto. Qed.

Lemma loc_scale_ok f loc s : xlt (Fin 0) s = true -> loc_scale f loc s = Ok (LocScale f loc s).
Proof. unfold loc_scale. intros ->. reflexivity. Qed.

Lemma data_reset c xi eps d xi' : sampler_data c xi eps = Ok d ->
  exists d', sampler_data c xi' eps = Ok d' /\ same_law d d' /\ loc_of d' = xi' /\ loc_of d = xi.
Proof.
  unfold sampler_data. destruct (family (sc_p c) (sc_power c)) as [f|]; [|discriminate].
  intros H. apply loc_scale_inv in H as [-> H]. rewrite (loc_scale_ok _ xi' _ H). eexists; split; [reflexivity|].
  simpl; auto.
Qed.

Lemma labels_reset c y eps d y' : sampler_labels c y eps = Ok d ->
  exists l l', d = Some l /\ sampler_labels c y' eps = Ok (Some l') /\ same_law l l' /\ loc_of l' = y' /\ loc_of l = y.
Proof.
  unfold sampler_labels. destruct c as [p w|p w k].
  - intros H; inversion H; subst. exists (DiracAt y), (DiracAt y'). simpl; auto.
  - destruct (xeq k PInf).
    + intros H; inversion H; subst. exists (DiracAt y), (DiracAt y'). simpl; auto.
    + destruct (family p w) as [f|]; [|discriminate].
      destruct (loc_scale f y (if xeq w (Fin 1) then xdiv (Fin (eps_default eps)) k else Fin (eps_default eps))) as [dd|] eqn:E; [|discriminate].
      apply loc_scale_inv in E as [-> E]. simpl. intros H; inversion H; subst. rewrite (loc_scale_ok _ y' _ E). simpl.
      eexists; eexists; split; [reflexivity|]. split; [reflexivity|]. simpl; auto.
Qed.

(* built samplers satisfy the constructor equations with their own attributes *)
Lemma built_inv s : built s ->
  sampler_data (cs_cost s) (loc_of (cs_data s)) (cs_sigma s) = Ok (cs_data s) /\
  (forall l, cs_labels s = Some l -> sampler_labels (cs_cost s) (loc_of l) (cs_sigma s) = Ok (Some l)).
Proof.
  intros (c & xi & sg & seed & [H|[y H]]).
  - unfold nolabels_init in H. destruct (sampler_data c xi sg) as [d|] eqn:E; [|discriminate].
    simpl in H; inversion H; subst; clear H. simpl. destruct (data_reset _ _ _ _ xi E) as (d' & E' & _ & L & L0).
    rewrite L0. split; [exact E|]. discriminate.
  - unfold labeled_init in H. destruct (sampler_data c xi sg) as [d|] eqn:E; [|discriminate]. simpl in H.
    destruct (sampler_labels c y sg) as [l|] eqn:El; [|discriminate]. simpl in H.
    destruct l as [l|]; [|discriminate]. inversion H; subst; clear H. simpl.
    destruct (data_reset _ _ _ _ xi E) as (d' & E' & _ & L & L0).
    destruct (labels_reset _ _ _ _ y El) as (l1 & l2 & H1 & _ & _ & _ & H2). inversion H1; subst l1.
    split; [rewrite L0; exact E|]. intros l0 H0. inversion H0; subst. exact El.
Qed.

Lemma reset_ok s xi y : built s -> (has_labels s = true -> y <> None) ->
  exists s', cs_reset s xi y = Ok s' /\ built s' /\ kept s s' /\
             means s' = (xi, if has_labels s then y else None).
Proof.
  intros B Hy. pose proof (built_inv s B) as [Hd Hl]. unfold cs_reset, has_labels, means in *.
  destruct (cs_labels s) as [l|] eqn:El.
  - destruct y as [y|]; [|exfalso; apply Hy; auto].
    destruct (data_reset _ _ _ _ xi Hd) as (d' & E' & S1 & L1 & _).
    destruct (labels_reset _ _ _ _ y (Hl l eq_refl)) as (l1 & l2 & H1 & E2 & S2 & L2 & _). inversion H1; subst l1.
    unfold labeled_init. rewrite E'. simpl. rewrite E2. simpl. eexists. split; [reflexivity|]. split.
    + exists (cs_cost s), xi, (cs_sigma s), (cs_seed s). right. exists y. unfold labeled_init. rewrite E'. simpl. rewrite E2. reflexivity.
    + unfold kept. simpl. rewrite El. rewrite L1, L2. simpl. auto 10.
  - destruct (data_reset _ _ _ _ xi Hd) as (d' & E' & S1 & L1 & _). unfold nolabels_init. rewrite E'. simpl.
    eexists. split; [reflexivity|]. split.
    + exists (cs_cost s), xi, (cs_sigma s), (cs_seed s). left. unfold nolabels_init. rewrite E'. reflexivity.
    + unfold kept. simpl. rewrite El, L1. simpl. auto 10.
Qed.

Lemma reset_result s xi y : built s ->
  (has_labels s = true /\ y = None /\ cs_reset s xi y = Raise AssertionError) \/
  ((has_labels s = true -> y <> None) /\ exists s', cs_reset s xi y = Ok s').
Proof.
  intros B. destruct (has_labels s) eqn:E.
  - destruct y as [y|].
    + right. split; [discriminate|]. destruct (reset_ok s xi (Some y) B) as (s' & H & _); [discriminate|]. eauto.
    + left. unfold cs_reset, has_labels in *. destruct (cs_labels s); [auto|discriminate].
  - right. split; [discriminate|]. destruct (reset_ok s xi y B) as (s' & H & _); [congruence|]. eauto.
Qed.

Lemma same_law_refl d : same_law d d. Proof. destruct d; simpl; auto. Qed.
Lemma same_law_trans a b c : same_law a b -> same_law b c -> same_law a c.
Proof. destruct a, b, c; simpl; try tauto. intros [-> ->] [-> ->]; auto. Qed.
Lemma kept_refl s : kept s s.
Proof. unfold kept. repeat split; auto; try apply same_law_refl. destruct (cs_labels s); simpl; auto using same_law_refl. Qed.
Lemma kept_trans a b c : kept a b -> kept b c -> kept a c.
Proof.
  unfold kept. intros (A1 & A2 & A3 & A4 & A5) (B1 & B2 & B3 & B4 & B5).
  repeat split; try congruence; eauto using same_law_trans.
  unfold same_law_opt in *. destruct (cs_labels a), (cs_labels b), (cs_labels c); try tauto. eauto using same_law_trans.
Qed.
Lemma kept_labels a b : kept a b -> has_labels b = has_labels a.
Proof.
  intros (_ & _ & _ & _ & H). unfold has_labels, same_law_opt in *. destruct (cs_labels a), (cs_labels b); tauto.
Qed.

Lemma step_caught s b : built s ->
  built (cs_reset_caught s b) /\ kept s (cs_reset_caught s b) /\
  means (cs_reset_caught s b) =
    (if has_labels s then match snd b with None => means s | Some _ => b end else (fst b, None)).
Proof.
  intros B. destruct b as [xi y]. unfold cs_reset_caught. simpl. destruct (reset_result s xi y B) as [(H1 & H2 & H3)|(H1 & s' & H2)].
  - rewrite H3, H1, H2. split; [exact B|]. split; [apply kept_refl|reflexivity].
  - destruct (reset_ok s xi y B H1) as (s1 & E & B1 & K & M). rewrite E. split; [exact B1|]. split; [exact K|]. rewrite M.
    destruct (has_labels s); [|reflexivity]. destruct y; [reflexivity|]. exfalso; apply H1; auto.
Qed.

Lemma resets_spec l : forall s, built s ->
  built (cs_resets s l) /\ kept s (cs_resets s l) /\ means (cs_resets s l) = last_means (has_labels s) (means s) l.
Proof.
  unfold cs_resets. induction l as [|[xi y] l IH]; intros s B; simpl.
  - split; [exact B|]. split; [apply kept_refl|reflexivity].
  - destruct (step_caught s (xi, y) B) as (B1 & K1 & M1). destruct (IH _ B1) as (B2 & K2 & M2).
    split; [exact B2|]. split; [eapply kept_trans; eauto|]. rewrite M2. rewrite (kept_labels _ _ K1). rewrite M1. simpl.
    reflexivity.
Qed.

(* ---------- C42 ---------- *)

Section RNGP.
  Variable G : Type.
  Variable manual_seed : Z -> G.
  Variable draw : fam -> nat -> list nat -> G -> list batch * G.

  Definition zetas_from (s : csampler) (n : nat) (g : G) := let '(z, zl, _) := sample G draw s n g in (z, zl).
  Definition after (s : csampler) (n : nat) (g : G) : G := let '(_, _, g') := sample G draw s n g in g'.

  Lemma caught_ok s b s' : cs_reset s (fst b) (snd b) = Ok s' -> cs_reset_caught s b = s'.
  Proof. unfold cs_reset_caught. intros ->. reflexivity. Qed.

  Lemma reset_indep s s1 xi y : built s -> kept s s1 -> built s1 -> cs_reset s1 xi y = cs_reset s xi y.
  Proof.
    intros B (K1 & K2 & K3 & _ & K5) B1. unfold cs_reset. rewrite K1, K2, K3.
    destruct (cs_labels s), (cs_labels s1); simpl in K5; try tauto; reflexivity.
  Qed.

  Lemma at_batch_indep s s1 b : built s -> kept s s1 -> built s1 -> (has_labels s = true -> snd b <> None) ->
    at_batch s1 b = at_batch s b.
  Proof.
    intros B K B1 H. unfold at_batch, cs_reset_caught. rewrite (reset_indep s s1 _ _ B K B1).
    destruct (reset_ok s (fst b) (snd b) B H) as (s2 & E & _). rewrite E. reflexivity.
  Qed.

  (* with a seed and the default reset every pass draws from the state manual_seed z, whatever happened before *)
  Lemma seeded_passes rho n z mix : 0 < rho -> forall bs s g, built s -> cs_seed s = Some z ->
    (has_labels s = true -> Forall (fun b => snd b <> None) bs) ->
    passes G manual_seed draw rho n true bs mix s g =
      Ok (map (fun b => Some (zetas_from (at_batch s b) n (manual_seed z))) bs).
  Proof.
    intros Hr. induction bs as [|[xi y] bs IH]; intros s g B Hs Hl; simpl; [reflexivity|].
    assert (Hy : has_labels s = true -> y <> None) by (intros H; specialize (Hl H); inversion Hl; subst; auto).
    destruct (reset_ok s xi y B Hy) as (s1 & E1 & B1 & K1 & M1).
    unfold post_forward. rewrite E1. cbn [bind].
    assert (Hs1 : cs_seed s1 = Some z) by (destruct K1 as (_ & _ & K & _); congruence).
    rewrite Hs1. unfold reseed. replace (Rltb rho 0) with false by (symmetry; apply Rltb_false; lra).
    replace (Reqb rho 0) with false by (symmetry; apply Reqb_false; lra).
    assert (E : at_batch s (xi, y) = s1) by (apply caught_ok; exact E1). rewrite E.
    unfold zetas_from at 1. destruct (sample G draw s1 n (manual_seed z)) as [[zz zl] g2] eqn:Es. cbn [bind].
    rewrite (IH s1 _ B1 Hs1).
    - cbn [bind]. f_equal. f_equal. apply map_ext_in. intros b Hin. rewrite (at_batch_indep s s1 b B K1 B1); [reflexivity|].
      intros H. specialize (Hl H). inversion Hl as [|? ? ? H4]; subst. rewrite Forall_forall in H4. exact (H4 _ Hin).
    - rewrite (kept_labels _ _ K1). intros H; specialize (Hl H); inversion Hl; auto.
  Qed.

  (* the passes of an unseeded sampler, or of any sampler that is not reset, each drawing from the state left behind *)
  Fixpoint stream (n : nat) (move : bool) (mix : nat -> G -> G) (s : csampler) (g : G) (bs : list (batch * option batch)) :=
    match bs with
    | [] => []
    | b :: r => let s' := if move then at_batch s b else s in
                Some (zetas_from s' n g) :: stream n move mix s (mix (List.length r) (after s' n g)) r
    end.

  Lemma stream_indep n mix : forall bs s s1 g, built s -> kept s s1 -> built s1 ->
    (has_labels s = true -> Forall (fun b => snd b <> None) bs) -> stream n true mix s1 g bs = stream n true mix s g bs.
  Proof.
    induction bs as [|b bs IH]; intros s s1 g B K B1 Hl; [reflexivity|]. cbn [stream].
    rewrite (at_batch_indep s s1 b B K B1) by (intros H; specialize (Hl H); inversion Hl; auto).
    rewrite (IH s s1); auto. intros H; specialize (Hl H); inversion Hl; auto.
  Qed.

  Lemma unseeded_passes rho n mix : 0 < rho -> forall bs s g, built s -> cs_seed s = None ->
    (has_labels s = true -> Forall (fun b => snd b <> None) bs) ->
    passes G manual_seed draw rho n true bs mix s g = Ok (stream n true mix s g bs).
  Proof.
    intros Hr. induction bs as [|[xi y] bs IH]; intros s g B Hs Hl; [reflexivity|]. cbn [passes stream].
    assert (Hy : has_labels s = true -> y <> None) by (intros H; specialize (Hl H); inversion Hl; subst; auto).
    destruct (reset_ok s xi y B Hy) as (s1 & E1 & B1 & K1 & M1).
    unfold post_forward. rewrite E1. cbn [bind].
    assert (Hs1 : cs_seed s1 = None) by (destruct K1 as (_ & _ & K & _); congruence).
    rewrite Hs1. unfold reseed. replace (Rltb rho 0) with false by (symmetry; apply Rltb_false; lra).
    replace (Reqb rho 0) with false by (symmetry; apply Reqb_false; lra).
    assert (E : at_batch s (xi, y) = s1) by (apply caught_ok; exact E1). rewrite E.
    unfold zetas_from, after. destruct (sample G draw s1 n g) as [[zz zl] g2] eqn:Es. cbn [bind].
    assert (Hl' : has_labels s = true -> Forall (fun b : batch * option batch => snd b <> None) bs)
      by (intros H; specialize (Hl H); inversion Hl; auto).
    rewrite (IH s1 _ B1 Hs1).
    - cbn [bind]. f_equal. f_equal. apply stream_indep; auto.
    - rewrite (kept_labels _ _ K1). exact Hl'.
  Qed.

  Lemma unreset_passes rho n mix : 0 < rho -> forall bs s g,
    passes G manual_seed draw rho n false bs mix s g = Ok (stream n false mix s g bs).
  Proof.
    intros Hr. induction bs as [|[xi y] bs IH]; intros s g; [reflexivity|]. cbn [passes stream].
    unfold post_forward. cbn [bind]. replace (Rltb rho 0) with false by (symmetry; apply Rltb_false; lra).
    replace (Reqb rho 0) with false by (symmetry; apply Reqb_false; lra).
    unfold zetas_from, after. destruct (sample G draw s n g) as [[zz zl] g2] eqn:Es. cbn [bind].
    rewrite IH. reflexivity.
  Qed.

  (* after a seeded pass with reset the generator does not depend on its previous state *)
  Lemma seeded_forgets rho n xi y s g g' : built s -> cs_seed s <> None ->
    post_forward G manual_seed draw rho n xi y true s g = post_forward G manual_seed draw rho n xi y true s g'.
  Proof.
    intros B Hs. unfold post_forward. destruct (cs_reset s xi y) as [s1|] eqn:E; [|reflexivity]. cbn [bind].
    destruct (reset_result s xi y B) as [(_ & _ & H)|(Hy & _)]; [congruence|].
    destruct (reset_ok s xi y B Hy) as (s2 & E2 & _ & (_ & _ & K & _) & _). assert (s2 = s1) by congruence. subst s2.
    rewrite K. destruct (cs_seed s); [reflexivity|congruence].
  Qed.
End RNGP.

(* ---------- C43 and C70: covariance arguments ---------- *)

Lemma init_covar_error d sg t p c : init_covar d sg t p c = Raise ValueError <-> sg = None /\ t = None /\ p = None /\ c = None.
Proof.
  unfold init_covar. destruct sg, t, c, p; split; try discriminate; try (intros (? & ? & ? & ?); discriminate); auto.
Qed.

Lemma nth_map_seq {A} (f : nat -> A) (dft : A) d i : (i < d)%nat -> nth i (map f (seq 0 d)) dft = f i.
Proof.
  intros H. rewrite (nth_indep _ dft (f 0%nat)) by (rewrite map_length, seq_length; exact H).
  rewrite map_nth. rewrite seq_nth by exact H. reflexivity.
Qed.

Lemma dot_map {A} (f g : A -> R) l : dot (map f l) (map g l) = rsum (map (fun a => f a * g a) l).
Proof. unfold dot. rewrite map2_map_l, map2_map_r, map2_same. reflexivity. Qed.

Lemma rsum_delta (c : R) i : forall d s, (s <= i)%nat -> (i < s + d)%nat -> rsum (map (fun j => if Nat.eqb i j then c else 0) (seq s d)) = c.
Proof.
  induction d as [|d IH]; intros s H1 H2; [lia|]. simpl. destruct (Nat.eqb_spec i s) as [->|N].
  - replace (rsum (map (fun j => if Nat.eqb s j then c else 0) (seq (S s) d))) with 0; [lra|].
    symmetry. transitivity (rsum (map (fun _ : nat => 0) (seq (S s) d))).
    + f_equal. apply map_ext_in. intros j Hj. apply in_seq in Hj. destruct (Nat.eqb_spec s j); [lia|reflexivity].
    + rewrite rsum_map_const. lra.
  - rewrite IH by lia. lra.
Qed.

Lemma sigma_covariance d s i j : (i < d)%nat -> (j < d)%nat ->
  cov_entry (eye_scaled d s) i j = if Nat.eqb i j then s ^ 2 else 0.
Proof.
  intros Hi Hj. unfold cov_entry, eye_scaled. rewrite !nth_map_seq by assumption. rewrite dot_map.
  destruct (Nat.eqb_spec i j) as [->|N].
  - rewrite <- (rsum_delta (s ^ 2) j d 0) by lia. f_equal. apply map_ext. intros k. destruct (Nat.eqb j k); ring.
  - transitivity (rsum (map (fun _ : nat => 0) (seq 0 d))); [|rewrite rsum_map_const; lra].
    f_equal. apply map_ext. intros k. destruct (Nat.eqb_spec i k), (Nat.eqb_spec j k); try ring. lia.
Qed.

Lemma skipn_map_seq {A} (f : nat -> A) d i x : In x (skipn (S i) (map f (seq 0 d))) -> exists j, (i < j)%nat /\ x = f j.
Proof.
  rewrite skipn_map. intros H. apply in_map_iff in H as (j & <- & H). exists j. split; [|reflexivity].
  destruct (Nat.le_gt_cases d (S i)) as [L|L].
  - rewrite skipn_all2 in H by (rewrite seq_length; exact L). destruct H.
  - replace d with (S i + (d - S i))%nat in H by lia. rewrite seq_app, skipn_app, seq_length in H.
    rewrite skipn_all2 in H by (rewrite seq_length; lia). rewrite Nat.sub_diag in H. simpl in H. apply in_seq in H. lia.
Qed.

Lemma eye_valid_from s d : 0 < s -> forall n i, (i + n <= d)%nat ->
  check_rows i (map (fun i => map (fun j => if Nat.eqb i j then s else 0) (seq 0 d)) (seq i n)) = true.
Proof.
  intros Hs. induction n as [|n IH]; intros i H; [reflexivity|]. cbn [seq map check_rows].
  rewrite IH by lia. rewrite nth_map_seq by lia. rewrite Nat.eqb_refl. rewrite andb_true_r. apply andb_true_intro. split.
  - apply Rltb_true; exact Hs.
  - apply forallb_forall. intros x Hx. apply skipn_map_seq in Hx as (j & Hj & ->).
    destruct (Nat.eqb_spec i j); [lia|]. apply Reqb_true; reflexivity.
Qed.

Lemma eye_valid d s : (0 < d)%nat -> lower_cholesky (eye_scaled d s) = true <-> 0 < s.
Proof.
  intros Hd. split.
  - destruct d as [|d]; [lia|]. unfold lower_cholesky, eye_scaled. cbn [seq map check_rows]. intros H.
    apply andb_prop in H as [H _]. apply andb_prop in H as [H _]. apply Rltb_true in H. exact H.
  - intros Hs. unfold lower_cholesky, eye_scaled. apply eye_valid_from; [exact Hs|lia].
Qed.

(* ---------- C41: covariance samplers ---------- *)

Lemma last_cons_dft {A} (l : list A) a d : last (a :: l) d = last l a.
Proof.
  revert a d. induction l as [|b l IH]; intros a d; [reflexivity|].
  change (last (a :: b :: l) d) with (last (b :: l) d). rewrite (IH b d), (IH b a). reflexivity.
Qed.

Section CovP.
  Variable chol prec_chol : mat -> option mat.
  Hypothesis chol_valid : forall C L, chol C = Some L -> lower_cholesky L = true.
  Hypothesis prec_valid : forall P L, prec_chol P = Some L -> lower_cholesky L = true.

  Lemma mvn_valid c L : mvn_tril chol prec_chol c = Ok L -> lower_cholesky L = true.
  Proof.
    destruct c as [M|C|P]; simpl.
    - destruct (lower_cholesky M) eqn:E; [|discriminate]. intros H; inversion H; subst; exact E.
    - destruct (chol C) eqn:E; [|discriminate]. intros H; inversion H; subst; eauto.
    - destruct (prec_chol P) eqn:E; [|discriminate]. intros H; inversion H; subst; eauto.
  Qed.

  Lemma kw_valid xi k L : kw_tril chol prec_chol xi k = Ok L -> lower_cholesky L = true.
  Proof. unfold kw_tril. destruct (init_covar _ _ _ _ _); [|discriminate]. simpl. apply mvn_valid. Qed.

  Lemma kw_only xi L : lower_cholesky L = true -> kw_tril chol prec_chol xi (only_tril L) = Ok L.
  Proof. intros H. unfold kw_tril. simpl. rewrite H. reflexivity. Qed.

  Definition ns_resets (s : nsampler) (l : list (batch * option batch)) : Result nsampler :=
    fold_left (fun r a => do s <- r; ns_reset chol prec_chol s (fst a) (snd a)) l (Ok s).

  Lemma ns_init_inv xi k seed s : ns_init chol prec_chol xi k seed = Ok s ->
    n_loc s = xi /\ n_seed s = seed /\ kw_tril chol prec_chol xi k = Ok (n_tril s).
  Proof. unfold ns_init. destruct (kw_tril _ _ xi k); [|discriminate]. simpl. intros H; inversion H; auto. Qed.

  Lemma ns_resets_valid l : forall s, lower_cholesky (n_tril s) = true ->
    ns_resets s l = Ok {| n_loc := last (map fst l) (n_loc s); n_tril := n_tril s; n_seed := n_seed s |}.
  Proof.
    unfold ns_resets. induction l as [|[xi y] l IH]; intros s H; [destruct s; reflexivity|].
    cbn [fold_left bind]. unfold ns_reset at 2, ns_init at 1. rewrite (kw_only _ _ H). cbn [bind].
    rewrite IH by exact H. cbn [n_tril n_seed n_loc fst map]. rewrite last_cons_dft. reflexivity.
  Qed.

  Theorem ns_resets_spec xi k seed s l : ns_init chol prec_chol xi k seed = Ok s ->
    ns_resets s l = Ok {| n_loc := last (map fst l) xi; n_tril := n_tril s; n_seed := seed |}.
  Proof.
    intros H. destruct (ns_init_inv _ _ _ _ H) as (H1 & H2 & H3). rewrite ns_resets_valid by (eapply kw_valid; eauto).
    rewrite H1, H2. reflexivity.
  Qed.

  (* classification samplers *)
  Definition lab_loc (l : lablaw) : batch := match l with LGauss y _ | LDirac y | LFlip _ y => y end.
  Definition lab_at (l : lablaw) (y : batch) : lablaw :=
    match l with LGauss _ L => LGauss y L | LDirac _ => LDirac y | LFlip p _ => LFlip p y end.
  Definition cl_at (s : clsampler) (xi y : batch) : clsampler :=
    {| cl_data := {| n_loc := xi; n_tril := n_tril (cl_data s); n_seed := n_seed (cl_data s) |}; cl_lab := lab_at (cl_lab s) y |}.
  Definition cl_valid (s : clsampler) : Prop :=
    lower_cholesky (n_tril (cl_data s)) = true /\
    match cl_lab s with LGauss _ L => lower_cholesky L = true | LDirac _ => True | LFlip p _ => 0 <= p <= 1 end.

  Lemma cl_init_valid a xi y k seed s : cl_init chol prec_chol a xi y k seed = Ok s ->
    cl_valid s /\ n_seed (cl_data s) = seed /\ n_loc (cl_data s) = xi /\ lab_loc (cl_lab s) = y.
  Proof.
    unfold cl_init, cl_valid. destruct a as [lk| |p].
    - destruct (init_covar _ _ _ _ _) as [c|]; [|discriminate]. cbn [bind].
      destruct (init_covar _ _ _ _ _) as [lc|]; [|discriminate]. cbn [bind].
      destruct (mvn_tril _ _ c) as [L|] eqn:E1; [|discriminate]. cbn [bind].
      destruct (mvn_tril _ _ lc) as [LL|] eqn:E2; [|discriminate]. cbn [bind].
      intros H; inversion H; subst; simpl. eauto 10 using mvn_valid.
    - destruct (ns_init _ _ xi k seed) as [d|] eqn:E; [|discriminate]. cbn [bind]. intros H; inversion H; subst; simpl.
      apply ns_init_inv in E as (E1 & E2 & E3). eauto 10 using kw_valid.
    - destruct (Rleb 0 p && Rleb p 1)%bool eqn:Ep; [|discriminate]. cbn [bind assert_].
      destruct (ns_init _ _ xi k seed) as [d|] eqn:E; [|discriminate]. cbn [bind]. intros H; inversion H; subst; simpl.
      apply ns_init_inv in E as (E1 & E2 & E3). apply andb_prop in Ep as [P1 P2]. apply Rleb_true in P1, P2. eauto 10 using kw_valid.
  Qed.

  Lemma cl_reset_valid s xi y : cl_valid s -> cl_reset chol prec_chol s xi (Some y) = Ok (cl_at s xi y).
  Proof.
    intros [H1 H2]. unfold cl_reset, cl_at. destruct (cl_lab s) as [y0 L|y0|p y0]; unfold cl_init.
    - cbn [init_covar only_tril k_sigma k_tril k_cov k_prec bind mvn_tril]. rewrite H1, H2. reflexivity.
    - unfold ns_init. rewrite kw_only by exact H1. reflexivity.
    - replace (Rleb 0 p && Rleb p 1)%bool with true
        by (symmetry; apply andb_true_intro; split; apply Rleb_true; tauto). cbn [bind assert_].
      unfold ns_init. rewrite kw_only by exact H1. reflexivity.
  Qed.

  Definition cl_resets (s : clsampler) (l : list (batch * batch)) : Result clsampler :=
    fold_left (fun r a => do s <- r; cl_reset chol prec_chol s (fst a) (Some (snd a))) l (Ok s).

  Lemma cl_at_valid s xi y : cl_valid s -> cl_valid (cl_at s xi y).
  Proof. unfold cl_valid, cl_at. simpl. destruct (cl_lab s); simpl; auto. Qed.

  Theorem cl_resets_spec l : forall a xi y k seed s, cl_init chol prec_chol a xi y k seed = Ok s ->
    cl_resets s l = Ok (cl_at s (fst (last l (xi, y))) (snd (last l (xi, y)))).
  Proof.
    intros a xi y k seed s H. apply cl_init_valid in H as (V & _ & <- & <-).
    assert (Hg : cl_resets s l = Ok (let p := last l (n_loc (cl_data s), lab_loc (cl_lab s)) in cl_at s (fst p) (snd p))); [|exact Hg].
    unfold cl_resets. revert s V. induction l as [|[x1 y1] l IH]; intros s V.
    - cbn. f_equal. unfold cl_at. destruct s as [[xi t sd] lab]; simpl. f_equal. destruct lab; reflexivity.
    - cbn [fold_left bind fst snd]. rewrite cl_reset_valid by exact V. rewrite IH by (apply cl_at_valid; exact V).
      cbv zeta. f_equal.
      assert (E : last ((x1, y1) :: l) (n_loc (cl_data s), lab_loc (cl_lab s)) = last l (n_loc (cl_data (cl_at s x1 y1)), lab_loc (cl_lab (cl_at s x1 y1)))).
      { rewrite last_cons_dft. f_equal. unfold cl_at; simpl. destruct (cl_lab s); reflexivity. }
      rewrite E. unfold cl_at; simpl. f_equal. destruct (cl_lab s); reflexivity.
  Qed.

  Lemma cl_reset_nolabels s xi : cl_reset chol prec_chol s xi None = Raise AssertionError.
  Proof. reflexivity. Qed.
End CovP.

(* ---------- C44 ---------- *)

Lemma flip_values y b : flip_label y b = if b then y else - y.
Proof. unfold flip_label. destruct b; ring. Qed.

Lemma flip_prob p y : y <> 0 -> prob_switch (flip_law p y) y = 1 - p.
Proof.
  intros H. unfold prob_switch, flip_law, bernoulli_law. cbn [map fst snd rsum]. rewrite !flip_values.
  destruct (Req_EM_T y y) as [_|N]; [|contradiction]. destruct (Req_EM_T (- y) y) as [E|_]; [exfalso; lra|]. lra.
Qed.

(* ---------- C45 ---------- *)

Lemma prod_app a b : prod (a ++ b) = (prod a * prod b)%nat.
Proof. induction a as [|n a IH]; simpl; [lia|]. rewrite IH. lia. Qed.

Lemma flat_app a i : valid_idx a i -> forall b j, flat (a ++ b) (i ++ j) = (flat a i * prod b + flat b j)%nat.
Proof.
  induction 1 as [|n k a i H _ IH]; intros b j; simpl; [reflexivity|]. rewrite IH, prod_app. nia.
Qed.

Lemma flat_lt a i : valid_idx a i -> (flat a i < prod a)%nat.
Proof. induction 1 as [|n k a i H _ IH]; simpl; [lia|]. nia. Qed.

Lemma nth_concat_repeat {A} (l : list A) r : (r < List.length l)%nat -> forall n q, (q < n)%nat ->
  nth_error (List.concat (repeat l n)) (q * List.length l + r) = nth_error l r.
Proof.
  intros Hr. induction n as [|n IH]; intros q Hq; [lia|]. cbn [repeat List.concat]. destruct q as [|q].
  - simpl. rewrite nth_error_app1 by exact Hr. reflexivity.
  - rewrite nth_error_app2 by (simpl; lia). replace (S q * List.length l + r - List.length l)%nat with (q * List.length l + r)%nat by lia.
    apply IH. lia.
Qed.

Lemma concat_repeat_length {A} (l : list A) n : List.length (List.concat (repeat l n)) = (n * List.length l)%nat.
Proof. induction n as [|n IH]; simpl; [reflexivity|]. rewrite app_length, IH. lia. Qed.

Lemma rsample_spec loc nb ss : well_shaped loc ->
  let t := dirac_rsample (Dirac loc nb) ss in
  t_shape t = ss ++ t_shape loc /\ well_shaped t /\
  forall i j, valid_idx ss i -> valid_idx (t_shape loc) j -> tget t (i ++ j) = tget loc j.
Proof.
  intros W. cbv zeta. unfold dirac_rsample, expand_front, Dirac, well_shaped, tget. cbn [t_shape t_data d_batch d_event d_loc].
  rewrite firstn_skipn. split; [reflexivity|]. split.
  - rewrite concat_repeat_length, prod_app, W. reflexivity.
  - intros i j Hi Hj. rewrite (flat_app ss i Hi). rewrite <- W. apply nth_concat_repeat.
    + rewrite W. apply flat_lt; exact Hj.
    + apply flat_lt; exact Hi.
Qed.

Lemma xsum_abs_fin l : finite_list l ->
  exists s, fold_right xadd (Fin 0) (map xabs_ l) = Fin s /\ 0 <= s /\ (s = 0 <-> Forall (fun x => x = Fin 0) l).
Proof.
  induction 1 as [|x l [r ->] _ (s & E & Hs & IH)]; cbn [map fold_right].
  - exists 0. split; [reflexivity|]. split; [lra|]. split; auto.
  - rewrite E. exists (Rabs r + s). split; [reflexivity|]. pose proof (Rabs_pos r). split; [lra|]. split.
    + intros H0. constructor; [|apply IH; lra]. assert (Rabs r = 0) by lra. f_equal.
      destruct (Req_dec r 0) as [Z|Z]; [exact Z|]. apply Rabs_no_R0 in Z. contradiction.
    + intros F. inversion F as [|? ? H0 F']; subst. inversion H0; subst. rewrite Rabs_R0. apply IH in F'. lra.
Qed.

Lemma map2_xsub_fin a : forall b, finite_list a -> finite_list b -> finite_list (map2 xsub a b).
Proof.
  induction a as [|x a IH]; intros [|y b] Ha Hb; simpl; try constructor.
  - inversion Ha as [|? ? [r ->] Ha']; inversion Hb as [|? ? [s ->] Hb']; subst. eexists; reflexivity.
  - inversion Ha; inversion Hb; subst. apply IH; assumption.
Qed.

Lemma map2_xsub_zero a : forall b, List.length a = List.length b -> finite_list a -> finite_list b ->
  Forall (fun x => x = Fin 0) (map2 xsub a b) <-> a = b.
Proof.
  induction a as [|x a IH]; intros [|y b] HL Ha Hb; simpl in *; try discriminate; [split; auto|].
  inversion Ha as [|? ? [r ->] Ha']; inversion Hb as [|? ? [s ->] Hb']; subst. specialize (IH b (eq_add_S _ _ HL) Ha' Hb'). split.
  - intros F. inversion F as [|? ? H0 F']; subst. cbn in H0. inversion H0. apply IH in F'. rewrite F'. f_equal. f_equal. lra.
  - intros E. inversion E; subst. constructor; [cbn; f_equal; lra|]. apply IH; reflexivity.
Qed.

Lemma finite_copies l n : finite_list l -> finite_list (List.concat (repeat l n)).
Proof. intros H. induction n as [|n IH]; simpl; [constructor|]. apply Forall_app; split; assumption. Qed.

Lemma log_prob_finite loc nb ss v : well_shaped loc -> finite_list (t_data loc) -> finite_list v ->
  List.length v = prod (ss ++ t_shape loc) ->
  (v = t_data (dirac_rsample (Dirac loc nb) ss) -> dirac_log_prob (Dirac loc nb) ss v = Fin 0) /\
  (v <> t_data (dirac_rsample (Dirac loc nb) ss) -> dirac_log_prob (Dirac loc nb) ss v = MInf).
Proof.
  intros W F Fv Lv. unfold dirac_log_prob. set (c := t_data (dirac_rsample (Dirac loc nb) ss)).
  assert (Fc : finite_list c) by (apply finite_copies; exact F).
  assert (Lc : List.length v = List.length c).
  { unfold c, dirac_rsample, expand_front. cbn [t_data]. rewrite concat_repeat_length, Lv, prod_app. unfold Dirac; cbn [d_loc]. rewrite W. reflexivity. }
  destruct (xsum_abs_fin _ (map2_xsub_fin v c Fv Fc)) as (s & E & Hs & Z). rewrite E.
  rewrite (map2_xsub_zero v c Lc Fv Fc) in Z. cbn [xeq]. split; intros H.
  - replace (Reqb s 0) with true; [reflexivity|]. symmetry. apply Reqb_true. tauto.
  - replace (Reqb s 0) with false; [reflexivity|]. symmetry. apply Reqb_false. tauto.
Qed.

(* a non-finite location has log-density -inf at itself *)
Lemma xsum_nan l : In NaN l -> fold_right xadd (Fin 0) l = NaN.
Proof.
  induction l as [|x l IH]; [intros []|]. cbn [fold_right]. intros [->|H]; [reflexivity|]. rewrite (IH H). destruct x; reflexivity.
Qed.

Lemma log_prob_infinite loc nb x : In x (t_data loc) -> (x = PInf \/ x = MInf \/ x = NaN) ->
  dirac_log_prob (Dirac loc nb) [] (t_data loc) = MInf.
Proof.
  intros Hin Hx. unfold dirac_log_prob, dirac_rsample, expand_front, Dirac. cbn [prod t_data d_loc repeat List.concat].
  rewrite app_nil_r. rewrite map2_same, map_map. rewrite xsum_nan; [reflexivity|].
  apply in_map_iff. exists x. split; [|exact Hin]. destruct Hx as [->|[->| ->]]; reflexivity.
Qed.

(* one differing entry empties the density of every element *)
Lemma labeled_all_minf lp loc nb ss v : well_shaped loc -> finite_list (t_data loc) -> finite_list v ->
  List.length v = prod (ss ++ t_shape loc) -> v <> t_data (dirac_rsample (Dirac loc nb) ss) -> finite_list lp ->
  Forall (fun x => x = MInf) (labeled_log_prob lp (Dirac loc nb) ss v).
Proof.
  intros W F Fv Lv N Fl. unfold labeled_log_prob. destruct (log_prob_finite loc nb ss v W F Fv Lv) as [_ H]. rewrite (H N).
  induction Fl as [|x lp [r ->] _ IH]; constructor; [reflexivity|exact IH].
Qed.

(* ---------- C71, C72: which costs can be sampled, label noise ---------- *)

Lemma xeq_fin x r : xeq x (Fin r) = true <-> x = Fin r.
Proof.
  destruct x; cbn; split; intros H; try discriminate.
  - apply Reqb_true in H. subst; reflexivity.
  - inversion H; subst. apply Reqb_true; reflexivity.
Qed.
Lemma xeq_pinf x : xeq x PInf = true <-> x = PInf.
Proof. destruct x; cbn; split; intros H; try discriminate; reflexivity. Qed.

Lemma family_some p w : family p w <> None <->
  (w = Fin 1 /\ (p = Fin 1 \/ p = Fin 2 \/ p = PInf)) \/ (w = Fin 2 /\ p = Fin 2).
Proof.
  assert (H12 : Fin 1 <> Fin 2) by (intros H; inversion H; lra).
  unfold family. destruct (xeq w (Fin 1)) eqn:E1.
  - apply xeq_fin in E1. subst w.
    destruct (xeq p (Fin 1)) eqn:Q1; [apply xeq_fin in Q1; subst; split; [auto|discriminate]|].
    destruct (xeq p (Fin 2)) eqn:Q2; [apply xeq_fin in Q2; subst; split; [auto|discriminate]|].
    destruct (xeq p PInf) eqn:Q3; [apply xeq_pinf in Q3; subst; split; [auto|discriminate]|].
    split; [congruence|]. rewrite <- (xeq_fin p 1), <- (xeq_fin p 2), <- xeq_pinf, Q1, Q2, Q3.
    intros [[_ [H|[H|H]]]|[H _]]; try discriminate. contradiction.
  - destruct (xeq w (Fin 2)) eqn:E2.
    + apply xeq_fin in E2. subst w. destruct (xeq p (Fin 2)) eqn:Q2.
      * apply xeq_fin in Q2. subst. split; [auto|discriminate].
      * split; [congruence|]. rewrite <- (xeq_fin p 2), Q2. intros [[H _]|[_ H]]; [|discriminate]. symmetry in H. contradiction.
    + split; [congruence|]. rewrite <- (xeq_fin w 1), <- (xeq_fin w 2), E1, E2. intros [[H _]|[H _]]; discriminate.
Qed.

Definition supported (p w : xr) : Prop := (w = Fin 1 /\ (p = Fin 1 \/ p = Fin 2 \/ p = PInf)) \/ (w = Fin 2 /\ p = Fin 2).

Lemma sampler_data_ok c xi e : 0 < eps_default e ->
  (supported (sc_p c) (sc_power c) -> exists d, sampler_data c xi e = Ok d) /\
  (~ supported (sc_p c) (sc_power c) -> sampler_data c xi e = Raise NotImplementedError).
Proof.
  intros He. unfold supported. rewrite <- family_some. unfold sampler_data. destruct (family (sc_p c) (sc_power c)) as [f|].
  - split; [|intros H; exfalso; apply H; discriminate]. intros _. rewrite loc_scale_ok; [eauto|]. cbn. apply Rltb_true. exact He.
  - split; [congruence|reflexivity].
Qed.
