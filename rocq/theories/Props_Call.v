(* C137: which calls of the public interface are accepted, and the calls shown in the documentation. *)
From Coq Require Import Bool String Arith Lia List.
From Verif Require Import PyBase Tuner_Model Lifecycle_Model Call_Model Call_Proofs.
Import ListNotations.
Local Open Scope string_scope.

(* specification: the parameter n is given the value a by the call *)
Definition gives {A} (s : pysig) (pos : list A) (kw : list (string * A)) (n : string) (a : A) : Prop :=
  (exists i, nth_error (map fst (positional s)) i = Some n /\ nth_error pos i = Some a) \/ In (n, a) kw.
Definition accepts {A} (s : pysig) (pos : list A) (kw : list (string * A)) : Prop := exists r, call s pos kw = Ok r.

Lemma nth_error_combine A (l : list string) (pos : list A) i n a : nth_error (combine l pos) i = Some (n, a) <-> nth_error l i = Some n /\ nth_error pos i = Some a.
Proof.
  revert pos i. induction l as [|x l IH]; intros pos i; [destruct i; cbn; split; [discriminate|intros [H _]; discriminate|discriminate|intros [H _]; discriminate]|].
  destruct pos as [|b pos]; [destruct i; cbn; split; try discriminate; intros [_ H]; discriminate|]. destruct i; cbn; [|apply IH]. split; [intros H; inversion H; auto|intros [H1 H2]; congruence].
Qed.
Lemma NoDup_app_intro {B} (l1 l2 : list B) : NoDup l1 -> NoDup l2 -> (forall x, In x l2 -> ~ In x l1) -> NoDup (l1 ++ l2).
Proof.
  intros N1 N2 H. induction N1 as [|x l1 Hx N1 IH]; cbn; [exact N2|]. constructor; [rewrite in_app_iff; intros [Q|Q]; [contradiction|apply (H x Q); left; reflexivity]|].
  apply IH. intros y Hy Q. apply (H y Hy). right. exact Q.
Qed.
Lemma NoDup_app_left {B} (l1 l2 : list B) : NoDup (l1 ++ l2) -> NoDup l1.
Proof. induction l1 as [|x l1 IH]; cbn; intros N; [constructor|]. inversion N; subst. constructor; [|auto]. intros H. apply H1. apply in_or_app. left. exact H. Qed.
Lemma NoDup_firstn {B} n (l : list B) : NoDup l -> NoDup (firstn n l).
Proof. intros N. rewrite <- (firstn_skipn n l) in N. exact (NoDup_app_left _ _ N). Qed.

(* Binding, for any signature with distinct parameters: a call is accepted iff it has no more positional arguments than positional
   parameters, its keywords are distinct, are parameters and were not given positionally, and every parameter without default is given;
   then each parameter receives the value it is given and its default otherwise. Any other call raises TypeError. *)
Theorem C137_binding : forall A (s : pysig) (pos : list A) (kw : list (string * A)), NoDup (map fst (params s)) -> extra_keywords s = false ->
  (accepts s pos kw <->
     (List.length pos <= List.length (positional s))%nat /\ NoDup (map fst kw) /\
     (forall k, In k (map fst kw) -> In k (map fst (params s)) /\ forall i, (i < List.length pos)%nat -> nth_error (map fst (positional s)) i <> Some k) /\
     (forall n, In (n, false) (params s) -> exists a, gives s pos kw n a)) /\
  (forall r, call s pos kw = Ok r -> map fst r = map fst (params s) /\
     (forall n a, In (n, Given a) r <-> In n (map fst (params s)) /\ gives s pos kw n a) /\
     (forall n, In (n, Default) r <-> In (n, true) (params s) /\ forall a, ~ gives s pos kw n a)) /\
  (~ accepts s pos kw -> call s pos kw = Raise TypeError).
Proof.
  intros A s pos kw Hn Hx.
  assert (First : forall k, In k (firstn (List.length pos) (map fst (positional s))) <-> exists i, (i < List.length pos)%nat /\ nth_error (map fst (positional s)) i = Some k).
  { intros k. split.
    - intros H. apply In_nth_error in H. destruct H as [i H]. exists i.
      assert (Q : (i < List.length (firstn (List.length pos) (map fst (positional s))))%nat) by (apply nth_error_Some; rewrite H; discriminate). rewrite firstn_length in Q. split; [lia|].
      rewrite <- (firstn_skipn (List.length pos) (map fst (positional s))). rewrite nth_error_app1; [exact H|]. rewrite firstn_length. lia.
    - intros (i & Hi & E). assert (L : (i < List.length (map fst (positional s)))%nat) by (apply nth_error_Some; rewrite E; discriminate). apply nth_error_In with (n := i). rewrite <- (firstn_skipn (List.length pos) (map fst (positional s))) in E.
      rewrite nth_error_app1 in E; [exact E|]. rewrite firstn_length. lia. }
  assert (G : forall n, (exists a, gives s pos kw n a) <-> In n (firstn (List.length pos) (map fst (positional s))) \/ In n (map fst kw)).
  { intros n. rewrite First. split.
    - intros (a & [(i & E1 & E2)|Hin]); [left; exists i; split; [apply nth_error_Some; rewrite E2; discriminate|exact E1]|right; apply in_map_iff; exists (n, a); auto].
    - intros [(i & L & E)|Hin].
      + destruct (nth_error pos i) as [a|] eqn:Ea; [exists a; left; exists i; auto|apply nth_error_None in Ea; lia].
      + apply in_map_iff in Hin. destruct Hin as ([n' a] & E & Hin). cbn in E. subst. exists a. right. exact Hin. }
  assert (L : legal A s pos kw <-> (List.length pos <= List.length (positional s))%nat /\ NoDup (map fst kw) /\
     (forall k, In k (map fst kw) -> In k (map fst (params s)) /\ forall i, (i < List.length pos)%nat -> nth_error (map fst (positional s)) i <> Some k) /\
     (forall n, In (n, false) (params s) -> exists a, gives s pos kw n a)).
  { unfold legal. rewrite Hx. split.
    - intros (Q1 & Q2 & Q3 & Q4). split; [exact Q1|]. split; [exact Q2|]. split; [|intros n H; apply G; auto]. intros k Hk. destruct (Q3 k Hk) as [R1 [R2|R2]]; [|discriminate].
      split; [exact R2|]. intros i Hi E. apply R1. apply First. exists i. auto.
    - intros (Q1 & Q2 & Q3 & Q4). split; [exact Q1|]. split; [exact Q2|]. split; [|intros n H; apply G; auto]. intros k Hk. destruct (Q3 k Hk) as [R1 R2]. split; [|left; exact R1].
      rewrite First. intros (i & Hi & E). exact (R2 i Hi E). }
  split; [|split].
  - rewrite <- L. split; [intros [r H]; exact (call_legal _ _ _ _ r H)|intros H; eexists; apply call_ok; exact H].
  - intros r H. pose proof (call_legal _ _ _ _ r H) as Lg. rewrite (call_ok _ _ _ _ Lg) in H. injection H as <-. destruct Lg as (Q1 & Q2 & Q3 & Q4).
    set (b := (combine (map fst (positional s)) pos ++ kw)%list).
    assert (Nb : NoDup (map fst b)).
    { unfold b. rewrite map_app, combine_fst by (rewrite map_length; exact Q1). apply NoDup_app_intro; [|exact Q2|intros k Hk; apply (Q3 k Hk)].
      apply NoDup_firstn. unfold params in Hn. rewrite map_app in Hn. exact (NoDup_app_left _ _ Hn). }
    assert (Gb : forall n a, In (n, a) b <-> gives s pos kw n a).
    { intros n a. unfold b. rewrite in_app_iff. unfold gives. split; intros [H|H]; try (right; exact H); left.
      - apply In_nth_error in H. destruct H as [i H]. exists i. apply nth_error_combine. exact H.
      - destruct H as (i & E). apply nth_error_combine in E. exact (nth_error_In _ _ E). }
    split; [rewrite map_map; apply map_ext; reflexivity|]. split.
    + intros n a. rewrite in_map_iff. unfold receives. split.
      * intros (p & E & Hp). destruct (assoc (fst p) b) as [a'|] eqn:Ea; [|discriminate]. injection E as <- <-. split; [apply in_map; exact Hp|]. apply Gb. apply assoc_some in Ea; assumption.
      * intros [Hp Hg]. apply Gb in Hg. apply in_map_iff in Hp. destruct Hp as (p & <- & Hp). exists p. split; [|exact Hp]. apply assoc_some in Hg; [|exact Nb]. rewrite Hg. reflexivity.
    + intros n. rewrite in_map_iff. unfold receives. split.
      * intros (p & E & Hp). destruct (assoc (fst p) b) as [a'|] eqn:Ea; [discriminate|]. injection E as <-. apply assoc_in in Ea.
        assert (D : forall a, ~ gives s pos kw (fst p) a) by (intros a Hg; apply Gb in Hg; apply Ea; apply in_map_iff; exists (fst p, a); auto). split; [|exact D].
        destruct p as [n d]. destruct d; [exact Hp|]. exfalso. destruct (proj2 (G n) (Q4 n Hp)) as [a Ha]. exact (D a Ha).
      * intros [Hp D]. exists (n, true). split; [|exact Hp]. cbn [fst]. destruct (assoc n b) as [a|] eqn:Ea; [|reflexivity]. exfalso. apply (D a). apply Gb. apply assoc_some in Ea; assumption.
  - intros H. destruct (call s pos kw) as [r|e] eqn:E; [exfalso; apply H; exists r; exact E|]. rewrite (call_error _ _ _ _ e E). reflexivity.
Qed.
Print Assumptions C137_binding.

(* every callable of the table has distinct parameters, no **kwargs, and required parameters before optional ones *)
Fixpoint ordered (ps : list param) : bool := match ps with (_, true) :: ((_, false) :: _) => false | _ :: ps' => ordered ps' | [] => true end.
Lemma library_ok : forall s, In s library -> NoDup (map fst (params s)) /\ extra_keywords s = false /\ ordered (positional s) = true.
Proof.
  intros s H. cbn [library app map In] in H. repeat (destruct H as [<-|H]; [split; [repeat constructor; cbn; intuition discriminate|split; reflexivity]|]). contradiction.
Qed.

(* robustify as documented: loss, model, radius, the contents of a batch, then epsilon and sigma by name. Accepted iff the batch has
   from two to six elements; two of them are the data and the labels, and a third one silently becomes post_sample. *)
Theorem C137_robustify : forall A (loss model rho : A) batch (eps sig : A),
  let c := call robustify_sig (loss :: model :: rho :: batch) [("epsilon", eps); ("sigma", sig)] in
  ((exists r, c = Ok r) <-> (2 <= List.length batch <= 6)%nat) /\
  (forall r x y more, c = Ok r -> batch = x :: y :: more ->
     In ("loss_", Given loss) r /\ In ("transform_", Given model) r /\ In ("rho", Given rho) r /\ In ("xi_batchinit", Given x) r /\ In ("xi_labels_batchinit", Given y) r /\
     In ("epsilon", Given eps) r /\ In ("sigma", Given sig) r /\ In ("adapt", Default) r /\ In ("imp_samp", Default) r /\
     In ("post_sample", match more with [] => Default | z :: _ => Given z end) r).
Proof.
  intros A loss model rho batch eps sig c. split.
  - unfold c. split.
    + intros [r H]. destruct batch as [|x [|y [|z1 [|z2 [|z3 [|z4 [|z5 more]]]]]]]; cbn in H; try discriminate; cbn; lia.
    + intros H. destruct batch as [|x [|y [|z1 [|z2 [|z3 [|z4 [|z5 more]]]]]]]; cbn in H; try lia; eexists; reflexivity.
  - unfold c. intros r x y more H ->. destruct more as [|z1 [|z2 [|z3 [|z4 [|z5 more]]]]]; cbn in H; try discriminate; injection H as <-; cbn; intuition.
Qed.
Print Assumptions C137_robustify.

(* DualLoss as documented: the keywords epsilon and sigma are not parameters, so every such call raises TypeError, whatever the other
   arguments. *)
Theorem C137_dual_loss : forall A (pos : list A) kw, In "epsilon" (map fst kw) \/ In "sigma" (map fst kw) ->
  call dual_post_sig pos kw = Raise TypeError /\ call dual_pre_sig pos kw = Raise TypeError.
Proof.
  intros A pos kw H.
  assert (K : forall s, In s library -> ~ In "epsilon" (map fst (params s)) -> ~ In "sigma" (map fst (params s)) -> call s pos kw = Raise TypeError).
  { intros s Hs N1 N2. destruct (library_ok s Hs) as (D & X & _). destruct (C137_binding A s pos kw D X) as (B1 & _ & B3). apply B3. intros Ac. apply B1 in Ac. destruct Ac as (_ & _ & Ac & _).
    destruct H as [H|H]; destruct (Ac _ H) as [Q _]; contradiction. }
  split; apply K; cbn; intuition discriminate.
Qed.
Print Assumptions C137_dual_loss.
Theorem C137_dual_loss_refuted : exists (pos : list nat) kw, List.length pos = 5%nat /\ kw = [("epsilon", 6%nat); ("sigma", 7%nat)] /\ call dual_post_sig pos kw = Raise TypeError.
Proof. exists [1; 2; 3; 4; 5]%nat, [("epsilon", 6%nat); ("sigma", 7%nat)]. repeat split. Qed.
Print Assumptions C137_dual_loss_refuted.
(* without them the documented call is accepted, and the two tensors are the regularisation then the radius *)
Theorem C137_dual_loss_fixed : forall A (loss cost n eps rho : A), exists r r', call dual_post_sig [loss; cost; n; eps; rho] [] = Ok r /\ call dual_pre_sig [loss; cost; n; eps; rho] [] = Ok r' /\
  In ("epsilon_0", Given eps) r /\ In ("rho_0", Given rho) r /\ In ("epsilon_0", Given eps) r' /\ In ("rho_0", Given rho) r'.
Proof. intros. eexists. eexists. split; [reflexivity|]. split; [reflexivity|]. cbn. intuition. Qed.
Print Assumptions C137_dual_loss_fixed.

(* The pre- and post-sampled losses are not interchangeable: the seventh positional argument is accepted by the first only. *)
Theorem C137_seventh_argument : forall A (pos : list A), List.length pos = 7%nat -> accepts dual_pre_sig pos [] /\ call dual_post_sig pos [] = Raise TypeError.
Proof.
  intros A pos L. do 7 (destruct pos as [|? pos]; [discriminate L|]). destruct pos; [|discriminate L]. split; [eexists; reflexivity|reflexivity].
Qed.
Print Assumptions C137_seventh_argument.

(* default_sampler as documented, with three arguments: seed has no default, so the call raises TypeError. *)
Theorem C137_default_sampler : forall A (pos : list A), accepts default_sampler_sig pos [] <-> List.length pos = 4%nat.
Proof.
  intros A pos. split.
  - intros [r H]. destruct pos as [|a [|b [|c [|d [|e pos]]]]]; cbn in H; try discriminate. reflexivity.
  - intros L. do 4 (destruct pos as [|? pos]; [discriminate L|]). destruct pos; [|discriminate L]. eexists. reflexivity.
Qed.
Print Assumptions C137_default_sampler.
Theorem C137_default_sampler_refuted : exists pos : list nat, List.length pos = 3%nat /\ call default_sampler_sig pos [] = Raise TypeError.
Proof. exists [1; 2; 3]%nat. split; reflexivity. Qed.
Print Assumptions C137_default_sampler_refuted.

(* The line reading the first batch of the tutorial, "x, y = next(iter(loader)),": the trailing comma makes a tuple of one element. *)
Theorem C137_warmup_refuted : exists batch : nat * nat, unpack2 [batch] = Raise ValueError /\ unpack2 [fst batch; snd batch] = Ok batch.
Proof. exists (1, 2)%nat. split; reflexivity. Qed.
Print Assumptions C137_warmup_refuted.

(* The estimators: every call by keywords among the parameters is accepted and what is not given takes its default; the only argument
   of LogisticRegression(1e-2) is the radius. *)
Theorem C137_estimators : forall A e (kw : list (string * A)), NoDup (map fst kw) ->
  (accepts (estimator_sig e) [] kw <-> forall k, In k (map fst kw) -> In k (Lifecycle_Model.signature e)) /\
  (forall r, call (estimator_sig e) [] kw = Ok r -> forall n, In n (Lifecycle_Model.signature e) -> (In (n, Default) r <-> ~ In n (map fst kw)) /\ forall a, In (n, Given a) r <-> In (n, a) kw) /\
  (forall rho : A, exists r, call (estimator_sig e) [rho] [] = Ok r /\ In ("rho", Given rho) r /\ forall n, In n (Lifecycle_Model.signature e) -> n <> "rho" -> In (n, Default) r).
Proof.
  intros A e kw N. assert (Hs : In (estimator_sig e) library) by (unfold library; apply in_or_app; right; apply in_map; destruct e; cbn; tauto).
  destruct (library_ok _ Hs) as (D & X & _).
  assert (P : map fst (params (estimator_sig e)) = Lifecycle_Model.signature e).
  { unfold params, estimator_sig. cbn [positional keyword_only]. rewrite app_nil_r, map_map. cbn. apply map_id. }
  assert (Pp : positional (estimator_sig e) = map opt (Lifecycle_Model.signature e)) by reflexivity.
  assert (Df : forall n, In (n, true) (params (estimator_sig e)) <-> In n (Lifecycle_Model.signature e)).
  { intros n. unfold params, estimator_sig. cbn [positional keyword_only]. rewrite app_nil_r, in_map_iff. split; [intros (m & E & H); injection E as <-; exact H|intros H; exists n; auto]. }
  assert (Nr : forall n, ~ In (n, false) (params (estimator_sig e))).
  { intros n H. unfold params, estimator_sig in H. cbn [positional keyword_only] in H. rewrite app_nil_r, in_map_iff in H. destruct H as (m & E & _). discriminate. }
  assert (Gk : forall kw' n a, gives (estimator_sig e) ([] : list A) kw' n a <-> In (n, a) kw').
  { intros kw' n a. unfold gives. split; [intros [(i & _ & H)|H]; [destruct i; discriminate|exact H]|auto]. }
  split; [|split].
  - destruct (C137_binding A _ [] kw D X) as (B1 & _). rewrite B1, P. split; [intros (_ & _ & H & _) k Hk; apply (H k Hk)|]. intros H. split; [apply Nat.le_0_l|]. split; [exact N|]. split.
    + intros k Hk. split; [auto|]. intros i Hi. inversion Hi.
    + intros n Hn. exfalso. exact (Nr n Hn).
  - intros r H n Hn. destruct (C137_binding A _ [] kw D X) as (_ & B2 & _). destruct (B2 r H) as (_ & B3 & B4). split.
    + rewrite B4, Df. split.
      * intros [_ Q] Hin. apply in_map_iff in Hin. destruct Hin as ([n' a] & E & Hin). cbn in E. subst. apply (Q a). apply Gk. exact Hin.
      * intros Q. split; [exact Hn|]. intros a Hg. apply Gk in Hg. apply Q. apply in_map_iff. exists (n, a). auto.
    + intros a. rewrite B3, P, Gk. tauto.
  - intros rho. assert (Ac : accepts (estimator_sig e) [rho] []) by (destruct e; eexists; reflexivity). destruct Ac as [r H]. exists r. split; [exact H|].
    destruct e; cbn in H; injection H as <-; cbn; (split; [tauto|]); intros n Hn Hr; intuition (subst; tauto).
Qed.
Print Assumptions C137_estimators.

(* The samplers flipping or copying the labels require a seed, by keyword; the others do not. *)
Theorem C137_sampler_seed : forall A (xi y p s : A),
  call id_sig [xi; y] [("sigma", s)] = Raise TypeError /\ call bernoulli_sig [p; xi; y] [("sigma", s)] = Raise TypeError /\
  accepts normal_sig [xi; y] [("sigma", s)] /\ accepts unlabelled_sig [xi] [("sigma", s)] /\
  (forall seed, accepts id_sig [xi; y] [("sigma", s); ("seed", seed)] /\ accepts bernoulli_sig [p; xi; y] [("sigma", s); ("seed", seed)]) /\
  forall seed, call id_sig [xi; y; seed] [("sigma", s)] = Raise TypeError.
Proof. intros. repeat split; try (eexists; reflexivity). Qed.
Print Assumptions C137_sampler_seed.

(* The remaining calls of the tutorials are accepted, with the arguments where they are meant to go. *)
Theorem C137_tutorial : forall A (a b c x y sigma seed loss model sampler labels none d : A),
  (exists r, call normlabelcost_sig [a; b; c] [] = Ok r /\ In ("p", Given a) r /\ In ("power", Given b) r /\ In ("kappa", Given c) r) /\
  (exists r, call labeled_sampler_sig [c; x; y] [("sigma", sigma); ("seed", seed)] = Ok r /\ In ("xi_labels", Given y) r /\ In ("sigma", Given sigma) r) /\
  (exists r, call wrapped_sig [loss; model; sampler] [("has_labels", labels)] = Ok r /\ In ("transform", Given model) r /\ In ("reduce_spatial_dims", Default) r) /\
  (exists r, call regloss_sig [none] [("d", d)] = Ok r /\ In ("sampler", Given none) r /\ In ("fit_intercept", Default) r) /\
  (exists r, call initial_guess_sig [x; y] [] = Ok r /\ In ("xi", Given x) r /\ In ("xi_labels", Given y) r) /\
  accepts optcond_sig [a] [] /\ call optcond_sig ([] : list A) [] = Raise TypeError.
Proof. intros. repeat split; try (eexists; split; [reflexivity|cbn; intuition]); eexists; reflexivity. Qed.
Print Assumptions C137_tutorial.

(* how many arguments may be given by position alone *)
Definition arity (lo hi : nat) (s : pysig) : Prop := forall A (pos : list A), accepts s pos [] <-> (lo <= List.length pos <= hi)%nat.
Ltac arity_cases := intros A pos; unfold accepts;
  do 10 (destruct pos as [|? pos]; [cbn; split; [intros [r E]; first [discriminate|lia]|intros L; first [lia|eexists; reflexivity]]|]);
  cbn; split; [intros [r E]; discriminate|lia].
Theorem C137_arities :
  arity 5 9 robustify_sig /\ arity 5 6 dual_post_sig /\ arity 5 7 dual_pre_sig /\ arity 1 1 regloss_sig /\ arity 4 5 wrapped_sig /\
  arity 0 3 normcost_sig /\ arity 0 4 normlabelcost_sig /\ arity 3 4 nolabels_sampler_sig /\ arity 4 5 labeled_sampler_sig /\ arity 2 2 normal_sig /\
  arity 1 1 unlabelled_sig /\ arity 1 4 optcond_sig /\ arity 3 3 solve_sig /\ arity 2 2 initial_guess_sig /\
  (forall A (pos : list A), call id_sig pos [] = Raise TypeError /\ call bernoulli_sig pos [] = Raise TypeError).
Proof.
  repeat (split; [arity_cases|]). intros A pos. do 5 (destruct pos as [|? pos]; [split; reflexivity|]). split; reflexivity.
Qed.
Print Assumptions C137_arities.

(* which parameter each positional argument goes to *)
Theorem C137_positions : forall A (a b c d e f g h i seed : A),
  (exists r, call robustify_sig [a; b; c; d; e; f; g; h; i] [] = Ok r /\ In ("loss_", Given a) r /\ In ("transform_", Given b) r /\ In ("rho", Given c) r /\ In ("xi_batchinit", Given d) r /\
     In ("xi_labels_batchinit", Given e) r /\ In ("post_sample", Given f) r /\ In ("cost_spec", Given g) r /\ In ("n_samples", Given h) r /\ In ("seed", Given i) r) /\
  (exists r, call wrapped_sig [a; b; c; d; e] [] = Ok r /\ In ("loss", Given a) r /\ In ("transform", Given b) r /\ In ("sampler", Given c) r /\ In ("has_labels", Given d) r /\ In ("reduce_spatial_dims", Given e) r) /\
  (exists r, call normcost_sig [a; b; c] [] = Ok r /\ In ("p", Given a) r /\ In ("power", Given b) r /\ In ("name", Given c) r) /\
  (exists r, call normlabelcost_sig [a; b; c; d] [] = Ok r /\ In ("p", Given a) r /\ In ("power", Given b) r /\ In ("kappa", Given c) r /\ In ("name", Given d) r) /\
  (exists r, call nolabels_sampler_sig [a; b; c; d] [] = Ok r /\ In ("cost", Given a) r /\ In ("xi", Given b) r /\ In ("sigma", Given c) r /\ In ("seed", Given d) r) /\
  (exists r, call labeled_sampler_sig [a; b; c; d; e] [] = Ok r /\ In ("cost", Given a) r /\ In ("xi", Given b) r /\ In ("xi_labels", Given c) r /\ In ("sigma", Given d) r /\ In ("seed", Given e) r) /\
  (exists r, call normal_sig [a; b] [] = Ok r /\ In ("xi", Given a) r /\ In ("xi_labels", Given b) r) /\
  (exists r, call id_sig [a; b] [("seed", seed)] = Ok r /\ In ("xi", Given a) r /\ In ("xi_labels", Given b) r) /\
  (exists r, call bernoulli_sig [a; b; c] [("seed", seed)] = Ok r /\ In ("p", Given a) r /\ In ("xi", Given b) r /\ In ("xi_labels", Given c) r) /\
  (exists r, call optcond_sig [a; b; c; d] [] = Ok r /\ In ("order", Given a) r /\ In ("tol_theta", Given b) r /\ In ("tol_lambda", Given c) r /\ In ("max_iter", Given d) r) /\
  (exists r, call solve_sig [a; b; c] [] = Ok r /\ In ("loss", Given a) r /\ In ("p_hat", Given b) r /\ In ("opt", Given c) r) /\
  (exists r, call initial_guess_sig [a; b] [] = Ok r /\ In ("xi", Given a) r /\ In ("xi_labels", Given b) r).
Proof.
  intros. repeat split; (eexists; split; [reflexivity|]; cbn; repeat split; tauto).
Qed.
Print Assumptions C137_positions.

(* non-vacuity *)
Example C137_binding_case : NoDup (map fst (params robustify_sig)) /\ accepts robustify_sig [1; 2; 3; 4; 5]%nat [("sigma", 6%nat)] /\ call robustify_sig [1; 2; 3; 4; 5]%nat [("rho", 6%nat)] = Raise TypeError.
Proof. split; [apply (library_ok robustify_sig); left; reflexivity|]. split; [eexists; reflexivity|reflexivity]. Qed.
Example C137_estimators_case : accepts (estimator_sig ELinear) [] [("rho", 1%nat); ("solver", 2%nat)] /\ call (estimator_sig ELinear) [] [("rho", 1%nat); ("sigma", 2%nat)] = Raise TypeError.
Proof. split; [eexists; reflexivity|reflexivity]. Qed.
