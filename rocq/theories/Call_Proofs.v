(* Argument binding: when a call is accepted and what each parameter receives. *)
From Coq Require Import Bool String Arith Lia List.
From Verif Require Import PyBase Call_Model.
Import ListNotations.

Section Binding.
Variable A : Type.
Implicit Types (s : pysig) (pos : list A) (kw b : list (string * A)).

Lemma assoc_in b k : assoc k b = None <-> ~ In k (map fst b).
Proof.
  induction b as [|[k' a] b IH]; cbn; [tauto|]. destruct (String.eqb_spec k k') as [->|N]; [split; [discriminate|intros H; exfalso; apply H; left; reflexivity]|].
  rewrite IH. split; [intros H [E|E]; [congruence|tauto]|tauto].
Qed.
Lemma assoc_some b k a : NoDup (map fst b) -> (assoc k b = Some a <-> In (k, a) b).
Proof.
  induction b as [|[k' a'] b IH]; cbn; intros N; [split; [discriminate|tauto]|]. inversion N; subst. destruct (String.eqb_spec k k') as [->|M].
  - split; [intros E; left; congruence|]. intros [E|E]; [congruence|]. exfalso. apply H1. apply in_map_iff. exists (k', a). auto.
  - rewrite IH by assumption. split; [tauto|]. intros [E|E]; [congruence|exact E].
Qed.
Lemma known_in k ps : known k ps = true <-> In k (map fst ps).
Proof.
  unfold known. rewrite existsb_exists, in_map_iff. split.
  - intros (p & Hp & E). apply String.eqb_eq in E. exists p. auto.
  - intros (p & E & Hp). exists p. split; [exact Hp|apply String.eqb_eq; congruence].
Qed.

Lemma fill_positional_ok ps pos : fill_positional A ps pos = if length pos <=? length ps then Ok (combine (map fst ps) pos) else Raise TypeError.
Proof.
  revert ps. induction pos as [|a pos IH]; intros [|p ps]; cbn; try reflexivity. rewrite IH. cbn. change (S (length pos) <=? S (length ps)) with (length pos <=? length ps).
  destruct (length pos <=? length ps); reflexivity.
Qed.
Lemma fill_keywords_ok s kw : forall b, 
  (forall b', fill_keywords A s b kw = Ok b' -> b' = b ++ kw /\ NoDup (map fst kw) /\ (forall k, In k (map fst kw) -> ~ In k (map fst b) /\ (In k (map fst (params s)) \/ extra_keywords s = true))) /\
  (NoDup (map fst kw) -> (forall k, In k (map fst kw) -> ~ In k (map fst b) /\ (In k (map fst (params s)) \/ extra_keywords s = true)) -> fill_keywords A s b kw = Ok (b ++ kw)) /\
  (forall e, fill_keywords A s b kw = Raise e -> e = TypeError).
Proof.
  induction kw as [|[k a] kw IH]; intros b; cbn.
  - split; [intros b' E; inversion E; subst; rewrite app_nil_r; repeat split; [constructor| |]; contradiction|]. split; [intros; rewrite app_nil_r; reflexivity|discriminate].
  - destruct (assoc k b) eqn:Eb.
    + split; [discriminate|]. split; [|intros e E; congruence]. intros _ H. destruct (H k (or_introl eq_refl)) as [H1 _]. apply assoc_in in H1. congruence.
    + apply assoc_in in Eb. destruct (known k (params s) || extra_keywords s) eqn:Ek.
      * assert (Hk : In k (map fst (params s)) \/ extra_keywords s = true) by (apply orb_true_iff in Ek; rewrite known_in in Ek; exact Ek).
        destruct (IH (b ++ [(k, a)])) as (I1 & I2 & I3). split; [|split; [|exact I3]].
        -- intros b' E. destruct (I1 b' E) as (Q1 & Q2 & Q3). rewrite <- app_assoc in Q1. split; [exact Q1|]. split.
           ++ constructor; [|exact Q2]. intros Hin. destruct (Q3 k Hin) as [Q _]. apply Q. rewrite map_app, in_app_iff. right. left. reflexivity.
           ++ intros k' [<-|Hin]; [tauto|]. destruct (Q3 k' Hin) as [Q4 Q5]. split; [|exact Q5]. intros H. apply Q4. rewrite map_app, in_app_iff. left. exact H.
        -- intros N H. inversion N; subst. rewrite I2; [rewrite <- app_assoc; reflexivity|assumption|]. intros k' Hin. destruct (H k' (or_intror Hin)) as [U1 U2]. split; [|exact U2].
           rewrite map_app, in_app_iff. intros [Q|[<-|[]]]; [exact (U1 Q)|contradiction].
      * split; [discriminate|]. split; [|intros e E; congruence]. intros _ H. destruct (H k (or_introl eq_refl)) as [_ H2]. apply orb_false_iff in Ek. destruct Ek as [E1 E2].
        destruct H2 as [H2|H2]; [apply known_in in H2; congruence|congruence].
Qed.
Definition receives b (p : param) : string * received A := (fst p, match assoc (fst p) b with Some a => Given a | None => Default end).
Lemma fill_defaults_ok b ps : 
  (forall r, fill_defaults A b ps = Ok r -> r = map (receives b) ps /\ forall n, In (n, false) ps -> In n (map fst b)) /\
  ((forall n, In (n, false) ps -> In n (map fst b)) -> fill_defaults A b ps = Ok (map (receives b) ps)) /\
  (forall e, fill_defaults A b ps = Raise e -> e = TypeError).
Proof.
  induction ps as [|[n d] ps (I1 & I2 & I3)]; cbn; [split; [intros r E; inversion E; subst; split; [reflexivity|contradiction]|split; [reflexivity|discriminate]]|].
  unfold receives at 1 3. cbn [fst]. destruct (assoc n b) as [a|] eqn:E.
  - assert (Hn : In n (map fst b)). { destruct (in_dec string_dec n (map fst b)) as [H|H]; [exact H|]. apply assoc_in in H. congruence. }
    destruct (fill_defaults A b ps) as [r|e] eqn:F; cbn.
    + destruct (I1 r eq_refl) as [Q1 Q2]. split; [intros r' Er; inversion Er; subst; split; [reflexivity|]; intros n' [Eq|Hin]; [inversion Eq; subst; exact Hn|auto]|].
      split; [intros; rewrite Q1; reflexivity|discriminate].
    + split; [discriminate|]. split; [|intros e' Ee; inversion Ee; subst; apply I3; reflexivity]. intros H. exfalso. assert (Q : Raise e = Ok (map (receives b) ps)) by (apply I2; auto). discriminate.
  - destruct d.
    + destruct (fill_defaults A b ps) as [r|e] eqn:F; cbn.
      * destruct (I1 r eq_refl) as [Q1 Q2]. split; [intros r' Er; inversion Er; subst; split; [reflexivity|]; intros n' [Eq|Hin]; [inversion Eq|auto]|].
        split; [intros; rewrite Q1; reflexivity|discriminate].
      * split; [discriminate|]. split; [|intros e' Ee; inversion Ee; subst; apply I3; reflexivity]. intros H. exfalso. assert (Q : Raise e = Ok (map (receives b) ps)) by (apply I2; auto). discriminate.
    + split; [discriminate|]. split; [|intros e Ee; congruence]. intros H. exfalso. apply assoc_in in E. apply E. apply H. left. reflexivity.
Qed.

Lemma combine_fst (l : list string) pos : length pos <= length l -> map fst (combine l pos) = firstn (length pos) l.
Proof. revert pos. induction l as [|x l IH]; intros [|a pos] H; cbn in *; try reflexivity. rewrite IH by lia. reflexivity. Qed.

(* what a call must satisfy *)
Definition legal s pos kw : Prop :=
  length pos <= length (positional s) /\ NoDup (map fst kw) /\
  (forall k, In k (map fst kw) -> ~ In k (firstn (length pos) (map fst (positional s))) /\ (In k (map fst (params s)) \/ extra_keywords s = true)) /\
  (forall n, In (n, false) (params s) -> In n (firstn (length pos) (map fst (positional s))) \/ In n (map fst kw)).
Lemma call_ok s pos kw : legal s pos kw -> call s pos kw = Ok (map (receives (combine (map fst (positional s)) pos ++ kw)) (params s)).
Proof.
  intros (L1 & L2 & L3 & L4). unfold call. rewrite fill_positional_ok. apply Nat.leb_le in L1 as E1. rewrite E1. cbn [PyBase.bind].
  destruct (fill_keywords_ok s kw (combine (map fst (positional s)) pos)) as (_ & K & _). rewrite K; [|exact L2|].
  - cbn [PyBase.bind]. apply fill_defaults_ok. intros n Hn. rewrite map_app, in_app_iff, combine_fst by (rewrite map_length; exact L1). apply L4. exact Hn.
  - rewrite combine_fst by (rewrite map_length; exact L1). exact L3.
Qed.
Lemma call_legal s pos kw r : call s pos kw = Ok r -> legal s pos kw.
Proof.
  unfold call. rewrite fill_positional_ok. destruct (length pos <=? length (positional s)) eqn:E1; [|discriminate]. apply Nat.leb_le in E1. cbn [PyBase.bind].
  destruct (fill_keywords A s _ kw) as [b'|e] eqn:E2; [|discriminate]. cbn [PyBase.bind]. intros E3.
  destruct (fill_keywords_ok s kw (combine (map fst (positional s)) pos)) as (K & _). destruct (K b' E2) as (Q1 & Q2 & Q3). subst b'.
  destruct (fill_defaults_ok (combine (map fst (positional s)) pos ++ kw) (params s)) as (D & _). destruct (D r E3) as [_ D2].
  rewrite combine_fst in Q3 by (rewrite map_length; exact E1). split; [exact E1|]. split; [exact Q2|]. split; [exact Q3|]. intros n Hn. specialize (D2 n Hn).
  rewrite map_app, in_app_iff, combine_fst in D2 by (rewrite map_length; exact E1). exact D2.
Qed.
Lemma call_error s pos kw e : call s pos kw = Raise e -> e = TypeError.
Proof.
  unfold call. rewrite fill_positional_ok. destruct (length pos <=? length (positional s)) eqn:E1; [|intros E; inversion E; reflexivity]. cbn [PyBase.bind].
  destruct (fill_keywords A s _ kw) as [b'|e'] eqn:E2; cbn [PyBase.bind].
  - apply fill_defaults_ok.
  - intros E. inversion E; subst. destruct (fill_keywords_ok s kw (combine (map fst (positional s)) pos)) as (_ & _ & K). exact (K e E2).
Qed.
End Binding.
