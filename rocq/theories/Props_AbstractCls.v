(* Property C152: which classes of the package can be instantiated. *)
From Coq Require Import List Bool String.
From Verif Require Import PyBase AbstractCls_Model.
Import ListNotations.
Local Open Scope string_scope.
Local Open Scope list_scope.

(* ---------- specification: the definition of a name that a class uses ---------- *)
Inductive missing : pyclass -> string -> Prop :=
| Miss n bs body m : ~ In m (map fst body) -> Forall (fun b => missing b m) bs -> missing (Class n bs body) m.
(* the last definition in the body, or that of the first base that has one *)
Inductive found : pyclass -> string -> bool -> Prop :=
| Own n bs pre post m f : ~ In m (map fst post) -> found (Class n bs (pre ++ (m, f) :: post)) m f
| Inherited n l1 b l2 body m f : ~ In m (map fst body) -> Forall (fun b' => missing b' m) l1 -> found b m f -> found (Class n (l1 ++ b :: l2) body) m f.

(* induction over the bases *)
Lemma pyclass_rect' (P : pyclass -> Prop) : (forall n bs body, Forall P bs -> P (Class n bs body)) -> forall c, P c.
Proof.
  intros H. fix IH 1. intros [n bs body]. apply H. induction bs as [|b r IHr]; constructor; [apply IH|exact IHr].
Qed.

Lemma own_none body m : own body m = None <-> ~ In m (map fst body).
Proof.
  induction body as [|[n f] r IH]; cbn; [tauto|]. destruct (own r m) as [b|] eqn:E.
  - split; [discriminate|]. intros H. exfalso. apply H. right. destruct (in_dec string_dec m (map fst r)) as [K|K]; [exact K|]. apply IH in K. discriminate.
  - destruct (String.eqb n m) eqn:Q.
    + apply String.eqb_eq in Q. subst n. split; [discriminate|tauto].
    + apply String.eqb_neq in Q. split; [|reflexivity]. intros _ [X|X]; [exact (Q X)|]. exact (proj1 IH eq_refl X).
Qed.
Lemma own_app pre m f post : ~ In m (map fst post) -> own (pre ++ (m, f) :: post) m = Some f.
Proof.
  intros H. induction pre as [|[n g] r IH]; cbn.
  - apply own_none in H. rewrite H, String.eqb_refl. reflexivity.
  - rewrite IH. reflexivity.
Qed.
Lemma own_some body m f : own body m = Some f -> exists pre post, body = pre ++ (m, f) :: post /\ ~ In m (map fst post).
Proof.
  induction body as [|[n g] r IH]; cbn; [discriminate|]. destruct (own r m) as [b|] eqn:E.
  - intros H. inversion H; subst b. destruct (IH eq_refl) as (pre & post & A & B). exists ((n, g) :: pre), post. rewrite A. split; [reflexivity|exact B].
  - destruct (String.eqb n m) eqn:Q; [|discriminate]. intros H. inversion H; subst g. apply String.eqb_eq in Q. subst n. exists [], r.
    split; [reflexivity|apply own_none; exact E].
Qed.
Definition first_res (m : string) := fix first (l : list pyclass) : option bool :=
  match l with [] => None | b :: r => match resolve b m with Some a => Some a | None => first r end end.
Lemma resolve_eq n bs body m : resolve (Class n bs body) m = match own body m with Some f => Some f | None => first_res m bs end.
Proof. reflexivity. Qed.
Lemma missing_inv n bs body m : missing (Class n bs body) m -> ~ In m (map fst body) /\ Forall (fun b => missing b m) bs.
Proof. intros H. inversion H; subst. split; assumption. Qed.
Lemma resolve_none c : forall m, resolve c m = None <-> missing c m.
Proof.
  induction c as [n bs body IH] using pyclass_rect'. intros m. rewrite resolve_eq.
  assert (F : first_res m bs = None <-> Forall (fun b => missing b m) bs).
  { clear - IH. induction bs as [|b r IHr]; cbn; [split; [constructor|reflexivity]|].
    pose proof (Forall_inv IH m) as Hb. specialize (IHr (Forall_inv_tail IH)). destruct (resolve b m) as [f|] eqn:E.
    - split; [discriminate|]. intros K. apply Forall_inv in K. apply Hb in K. discriminate.
    - rewrite IHr. split; intros K; [constructor; [apply Hb; reflexivity|exact K]|exact (Forall_inv_tail K)]. }
  destruct (own body m) as [f|] eqn:E.
  - split; [discriminate|]. intros K. apply missing_inv in K. destruct K as [K _]. apply own_none in K. rewrite K in E. discriminate.
  - rewrite F. split; intros K; [constructor; [apply own_none; exact E|exact K]|apply missing_inv in K; exact (proj2 K)].
Qed.
Lemma first_app m l1 b l2 f : Forall (fun b' => missing b' m) l1 -> resolve b m = Some f -> first_res m (l1 ++ b :: l2) = Some f.
Proof.
  intros H Hb. induction l1 as [|c r IH]; cbn; [rewrite Hb; reflexivity|].
  pose proof (proj2 (resolve_none c m) (Forall_inv H)) as E. rewrite E. apply IH. exact (Forall_inv_tail H).
Qed.
Lemma found_resolve c m f : found c m f -> resolve c m = Some f.
Proof.
  intros H. induction H as [n bs pre post m f H|n l1 b l2 body m f H1 H2 H3 IH]; rewrite resolve_eq.
  - rewrite own_app by exact H. reflexivity.
  - apply own_none in H1. rewrite H1. apply first_app; assumption.
Qed.
Lemma first_some m bs f : first_res m bs = Some f -> exists l1 b l2, bs = l1 ++ b :: l2 /\ Forall (fun b' => missing b' m) l1 /\ resolve b m = Some f.
Proof.
  induction bs as [|b r IH]; cbn; [discriminate|]. destruct (resolve b m) as [g|] eqn:E.
  - intros H. inversion H; subst g. exists [], b, r. split; [reflexivity|]. split; [constructor|exact E].
  - intros H. destruct (IH H) as (l1 & c & l2 & A & B & C). exists (b :: l1), c, l2. rewrite A. split; [reflexivity|]. split; [|exact C].
    constructor; [apply resolve_none; exact E|exact B].
Qed.
Lemma resolve_found c : forall m f, resolve c m = Some f -> found c m f.
Proof.
  induction c as [n bs body IH] using pyclass_rect'. intros m f. rewrite resolve_eq. destruct (own body m) as [g|] eqn:E.
  - intros H. inversion H; subst g. destruct (own_some _ _ _ E) as (pre & post & A & B). rewrite A. constructor. exact B.
  - intros H. destruct (first_some _ _ _ H) as (l1 & b & l2 & A & B & C). subst bs. constructor; [apply own_none; exact E|exact B|].
    rewrite Forall_forall in IH. apply IH; [apply in_or_app; right; left; reflexivity|exact C].
Qed.
Definition all_abs := fix all (l : list pyclass) : list string := match l with [] => [] | b :: r => abstract_set b ++ all r end.
Lemma abstract_eq n bs body : abstract_set (Class n bs body) =
  filter (fun m => is_abs (own body m)) (map fst body) ++ filter (fun m => is_abs (resolve (Class n bs body) m)) (all_abs bs).
Proof. reflexivity. Qed.
Lemma is_abs_true o : is_abs o = true <-> o = Some true.
Proof. destruct o as [[]|]; cbn; split; congruence. Qed.
Lemma abs_resolve c : forall m, In m (abstract_set c) <-> resolve c m = Some true.
Proof.
  induction c as [n bs body IH] using pyclass_rect'. intros m. rewrite abstract_eq, in_app_iff, !filter_In, !is_abs_true. split.
  - intros [[_ H]|[_ H]]; [|exact H]. rewrite resolve_eq, H. reflexivity.
  - intros H. pose proof H as H'. rewrite resolve_eq in H'. destruct (own body m) as [g|] eqn:E.
    + left. split; [|exact H']. destruct (in_dec string_dec m (map fst body)) as [K|K]; [exact K|]. apply own_none in K. congruence.
    + right. split; [|exact H]. destruct (first_some _ _ _ H') as (l1 & b & l2 & A & _ & C).
      assert (Ib : In b bs) by (subst bs; apply in_or_app; right; left; reflexivity).
      rewrite Forall_forall in IH. apply (IH b Ib) in C. clear - Ib C. induction bs as [|c r IHr]; [contradiction|]. cbn. apply in_or_app.
      destruct Ib as [->|Ib]; [left; exact C|right; exact (IHr Ib)].
Qed.

(* ---------- the mechanism, for every class ---------- *)
(* What Python collects from class to class is exactly the set of names whose definition in effect is abstract. *)
Theorem C152_abstract_iff : forall c m, In m (abstract_set c) <-> found c m true.
Proof. intros c m. rewrite abs_resolve. split; [apply resolve_found|apply found_resolve]. Qed.
Print Assumptions C152_abstract_iff.
(* A class can be instantiated exactly when no name it uses is abstract; then its constructor decides. *)
Theorem C152_instantiable : forall (A : Type) c (init : Result A),
  ((forall m, ~ found c m true) -> instantiate c init = init) /\ ((exists m, found c m true) -> instantiate c init = Raise TypeError).
Proof.
  intros A c init. unfold instantiate. split.
  - intros H. destruct (abstract_set c) as [|m l] eqn:E; [reflexivity|]. exfalso. apply (H m). apply C152_abstract_iff. rewrite E. left. reflexivity.
  - intros [m H]. apply C152_abstract_iff in H. destruct (abstract_set c); [contradiction|reflexivity].
Qed.
Print Assumptions C152_instantiable.

(* ---------- the classes of the package ---------- *)
Definition concrete_classes := [LogisticLossC; QuadraticLossC; NewsVendorLossC; WrappedC; NormCostC; NormLabelCostC; NormalNormalC; NormalIdC; NormalBernouilliC;
  NoLabelsCostC; LabeledCostC; NewsVendorSamplerC; PortfolioNormalC; PortfolioLaplaceC; PostSampledC; PreSampledC].
Theorem C152_library : forall c m, In c concrete_classes -> ~ found c m true.
Proof.
  intros c m H K. apply C152_abstract_iff in K. revert K. unfold concrete_classes in H. cbn [In] in H.
  repeat match goal with H : _ \/ _ |- _ => destruct H as [<-|H] end; try contradiction; cbn; tauto.
Qed.
Print Assumptions C152_library.
(* what is left abstract in the base classes: a new loss must define three names, a new cost four, a new sampler built on the
   labelled or unlabelled base only reset_mean, a new dual loss forward and presample *)
Theorem C152_bases : forall m,
  (found LossC m true <-> In m ["default_sampler"; "theta"; "intercept"]) /\
  (found TorchCostC m true <-> In m ["value"; "_sampler_data"; "_sampler_labels"; "solve_max_series_exp"]) /\
  (found BaseSamplerC m true <-> In m ["sample"; "produces_labels"; "reset_mean"; "log_prob"; "log_prob_recentered"]) /\
  (found NoLabelsSamplerC m true <-> m = "reset_mean") /\ (found LabeledSamplerC m true <-> m = "reset_mean") /\
  (found DualFormC m true <-> In m ["forward"; "presample"]).
Proof. intros m. repeat split; rewrite <- C152_abstract_iff; cbn; intuition (subst; auto). Qed.
Print Assumptions C152_bases.
(* A class deriving from Loss whose methods are all concrete can be instantiated exactly when it defines the three names;
   default_sampler, presented as optional, is one of them, and value is not. *)
Theorem C152_new_loss : forall name body, Forall (fun p => snd p = false) body ->
  (forall m, ~ found (Class name [LossC] body) m true) <->
  In "default_sampler" (map fst body) /\ In "theta" (map fst body) /\ In "intercept" (map fst body).
Proof.
  intros name body HF.
  assert (O : forall m f, own body m = Some f -> f = false).
  { intros m f E. destruct (own_some _ _ _ E) as (pre & post & A & _). rewrite A in HF. apply Forall_app in HF. destruct HF as [_ HF]. exact (Forall_inv HF). }
  assert (Q : forall m, found (Class name [LossC] body) m true <-> ~ In m (map fst body) /\ found LossC m true).
  { intros m. rewrite <- !C152_abstract_iff, !abs_resolve, resolve_eq. destruct (own body m) as [f|] eqn:E.
    - rewrite (O m f E). split; [discriminate|]. intros [K _]. apply own_none in K. congruence.
    - apply own_none in E. unfold first_res. destruct (resolve LossC m) as [[]|]; intuition congruence. }
  split.
  - intros H. assert (P : forall m, found LossC m true -> In m (map fst body)).
    { intros m K. destruct (in_dec string_dec m (map fst body)) as [I|I]; [exact I|]. exfalso. apply (H m). apply Q. split; assumption. }
    repeat split; apply P; apply (C152_bases _); cbn; tauto.
  - intros (A & B & C) m K. apply Q in K. destruct K as [K L]. apply (C152_bases m) in L. cbn in L.
    destruct L as [<-|[<-|[<-|[]]]]; contradiction.
Qed.
Print Assumptions C152_new_loss.

(* ---------- DiffLoss ---------- *)
Theorem C152_diff_loss_refuted : exists m, found DiffLossC m true.
Proof. exists "intercept". apply C152_abstract_iff. cbn. tauto. Qed.
Print Assumptions C152_diff_loss_refuted.
(* It lacks intercept and default_sampler, so no instance exists, whatever the loss given. *)
Theorem C152_diff_loss_never : forall (L : Type) (l : L), (forall m, found DiffLossC m true <-> m = "default_sampler" \/ m = "intercept") /\
  diff_loss DiffLossC l = Raise TypeError.
Proof. intros L l. split; [|reflexivity]. intros m. rewrite <- C152_abstract_iff. cbn. intuition. Qed.
Print Assumptions C152_diff_loss_never.
(* Defining the missing names in a class derived from it would not do: its constructor does not give has_labels. *)
Theorem C152_diff_loss_repair : forall (L : Type) c (l : L), diff_loss c l = Raise TypeError.
Proof. intros L c l. unfold diff_loss, instantiate. destruct (abstract_set c); reflexivity. Qed.
Print Assumptions C152_diff_loss_repair.
(* the tuner: even on an estimator that has problem_, the general tuner stops here *)
Theorem C152_tuner_stops : forall (L : Type) (p : Result L), exists e, tuner_diff p = Raise e /\ (forall l, p = Ok l -> e = TypeError) /\ (forall x, p = Raise x -> e = x).
Proof. intros L [l|x]; eexists; (split; [reflexivity|]); split; congruence. Qed.
Print Assumptions C152_tuner_stops.
(* the other losses give both arguments; a call is accepted exactly when every parameter without default is given once *)
Theorem C152_loss_call : forall npos kws, bind_call loss_sig npos kws = Ok tt <->
  (npos <= 2)%nat /\ (npos = 0%nat -> In "sampler" kws) /\ ((npos <= 1)%nat -> In "has_labels" kws) /\
  (forall k, In k kws -> In k ["l2reg"; "xi"; "xi_labels"; "sigma"] \/ (npos = 0%nat /\ k = "sampler") \/ ((npos <= 1)%nat /\ k = "has_labels")).
Proof.
  assert (M : forall s l, mem s l = true <-> In s l).
  { intros s l. unfold mem. rewrite existsb_exists. split; [intros (x & A & B); apply String.eqb_eq in B; subst x; exact A|].
    intros H. exists s. split; [exact H|apply String.eqb_refl]. }
  assert (U : forall kws names, existsb (fun k => negb (mem k names)) kws = false <-> forall k, In k kws -> In k names).
  { intros kws names. split.
    - intros H k K. apply M. destruct (mem k names) eqn:E; [reflexivity|]. assert (T : existsb (fun k => negb (mem k names)) kws = true); [|congruence].
      apply existsb_exists. exists k. rewrite E. split; [exact K|reflexivity].
    - intros H. apply not_true_is_false. intros T. apply existsb_exists in T. destruct T as (k & K & E). rewrite (proj2 (M k names) (H k K)) in E. discriminate. }
  intros npos kws. destruct npos as [|[|[|npos]]]; unfold bind_call; cbn [loss_sig positional kwonly List.length Nat.ltb Nat.leb firstn skipn map fst snd app].
  - destruct (existsb _ kws) eqn:E.
    + split; [discriminate|]. intros (_ & A & B & C). exfalso. assert (F : forall k, In k kws -> In k ["sampler"; "has_labels"; "l2reg"; "xi"; "xi_labels"; "sigma"]).
      { intros k K. destruct (C k K) as [I|[[_ ->]|[_ ->]]]; cbn in *; tauto. } pose proof (proj2 (U _ _) F) as F1. cbn [app map fst] in E. congruence.
    + pose proof (proj1 (U _ _) E) as E1; clear E; rename E1 into E. cbn [existsb snd fst negb andb orb]. pose proof (M "sampler" kws) as M1. pose proof (M "has_labels" kws) as M2.
      destruct (mem "sampler" kws); destruct (mem "has_labels" kws); cbn; (split; [try discriminate; intros _|intros (_ & A & B & _); specialize (A eq_refl); specialize (B (le_S _ _ (le_n _))); intuition discriminate]).
      split; [auto|]. split; [tauto|]. split; [tauto|]. intros k K. specialize (E k K). cbn in E. cbn. intuition.
  - destruct (existsb _ kws) eqn:E.
    + split; [discriminate|]. intros (_ & _ & B & C). exfalso. assert (F : forall k, In k kws -> In k ["has_labels"; "l2reg"; "xi"; "xi_labels"; "sigma"]).
      { intros k K. destruct (C k K) as [I|[[X _]|[_ ->]]]; cbn in *; try discriminate; tauto. } pose proof (proj2 (U _ _) F) as F1. cbn [app map fst] in E. congruence.
    + pose proof (proj1 (U _ _) E) as E1; clear E; rename E1 into E. cbn [existsb snd fst negb andb orb]. pose proof (M "has_labels" kws) as M2.
      destruct (mem "has_labels" kws); cbn; (split; [try discriminate; intros _|intros (_ & _ & B & _); specialize (B (le_n _)); intuition discriminate]).
      split; [auto|]. split; [discriminate|]. split; [tauto|]. intros k K. specialize (E k K). cbn in E. cbn. intuition.
  - destruct (existsb _ kws) eqn:E.
    + split; [discriminate|]. intros (_ & _ & _ & C). exfalso. assert (F : forall k, In k kws -> In k ["l2reg"; "xi"; "xi_labels"; "sigma"]).
      { intros k K. destruct (C k K) as [I|[[X _]|[X _]]]; [exact I|discriminate|exfalso; inversion X as [|? Y]; inversion Y]. } pose proof (proj2 (U _ _) F) as F1. cbn [app map fst] in E. congruence.
    + pose proof (proj1 (U _ _) E) as E1; clear E; rename E1 into E. cbn. split; [intros _|reflexivity]. split; [auto|]. split; [discriminate|]. split; [intros X; exfalso; inversion X as [|? Y]; inversion Y|].
      intros k K. left. exact (E k K).
  - split; [discriminate|]. intros (X & _). exfalso. inversion X as [|? Y]; inversion Y as [|? Z]; inversion Z.
Qed.
Print Assumptions C152_loss_call.
Example C152_case : instantiate LogisticLossC loss_super = Ok tt /\ instantiate LossC loss_super = Raise TypeError /\
  (forall m, ~ found (Class "MyLoss" [LossC] [d "theta"; d "intercept"; d "default_sampler"]) m true).
Proof.
  split; [reflexivity|]. split; [reflexivity|]. apply C152_new_loss; [repeat constructor|]. cbn. tauto.
Qed.
Example C152_no_default : found (Class "MyLoss" [LossC] [d "value"; d "theta"; d "intercept"]) "default_sampler" true.
Proof. apply C152_abstract_iff. cbn. tauto. Qed.
Example C152_call_case : bind_call loss_sig 1 ["has_labels"] = Ok tt /\ bind_call loss_sig 1 [] = Raise TypeError /\ loss_super = Ok tt.
Proof. repeat split. Qed.
