(* Property C99: the other methods of the Dirac distribution agree with its samples. *)
From Coq Require Import Reals List Bool ZArith Lra Lia.
From Verif Require Import PyBase RList XReal Samplers_Model Samplers_Spec Samplers_Proofs DiracX_Model DiracX_Proofs.
Import ListNotations.
Local Open Scope R_scope.

(* C99. expand accepts exactly the batch shapes that extend the current one (sizes equal or 1, from the right). *)
Theorem C99_expand_accepts :
  forall loc nb bs,
    ((exists d, dirac_expand (Dirac loc nb) bs = Ok d) <-> extends (d_batch (Dirac loc nb)) bs) /\
    (~ extends (d_batch (Dirac loc nb)) bs -> dirac_expand (Dirac loc nb) bs = Raise RuntimeError).
Proof.
  intros loc nb bs. split; [apply expand_ok|]. intros N. rewrite <- expand_ok in N. unfold dirac_expand, texpand, bind in *.
  destruct (_ && _); [|reflexivity]. exfalso. apply N. eauto.
Qed.
Print Assumptions C99_expand_accepts.

(* the expanded law has the shapes asked for, and its samples show the original location along the added or widened axes *)
Theorem C99_expand :
  forall loc nb bs d ss, well_shaped loc -> dirac_expand (Dirac loc nb) bs = Ok d ->
    let b0 := d_batch (Dirac loc nb) in let e0 := d_event (Dirac loc nb) in
    d_batch d = bs /\ d_event d = e0 /\ t_shape (dirac_rsample d ss) = ss ++ bs ++ e0 /\
    forall s b e, valid_idx ss s -> valid_idx bs b -> valid_idx e0 e ->
      tget (dirac_rsample d ss) (s ++ b ++ e) = tget loc (proj b0 (skipn (List.length bs - List.length b0) b) ++ e).
Proof.
  intros loc nb bs d ss W E b0 e0. destruct (expand_spec loc nb bs d W E) as (B & V & _).
  destruct (expand_rsample loc nb bs d ss W E) as [S G]. auto.
Qed.
Print Assumptions C99_expand.

Definition row_loc : tensor := {| t_shape := [1; 2]%nat; t_data := [Fin 3; Fin 4] |}.
Example C99_expand_case :
  exists d, dirac_expand (Dirac row_loc 1) [2; 3]%nat = Ok d /\ t_shape (d_loc d) = [2; 3; 2]%nat /\
    t_data (d_loc d) = [Fin 3; Fin 4; Fin 3; Fin 4; Fin 3; Fin 4; Fin 3; Fin 4; Fin 3; Fin 4; Fin 3; Fin 4] /\
    dirac_expand (Dirac row_loc 2) [1; 3]%nat = Raise RuntimeError.
Proof. eexists. repeat split. Qed.

(* mean and variance are those of any positive number of samples, entry by entry *)
Theorem C99_moments :
  forall loc nb n idx, well_shaped loc -> (0 < n)%nat -> valid_idx (t_shape loc) idx ->
    let t := dirac_rsample (Dirac loc nb) [n] in
    rsum (map (fun i => rval (tget t (i :: idx))) (seq 0 n)) / INR n = rval (tget (dirac_mean (Dirac loc nb)) idx) /\
    rsum (map (fun i => (rval (tget t (i :: idx)) - rval (tget (dirac_mean (Dirac loc nb)) idx)) ^ 2) (seq 0 n)) / INR n =
      rval (tget (dirac_variance (Dirac loc nb)) idx).
Proof. exact sample_mean. Qed.
Print Assumptions C99_moments.

(* the mode is a most likely value *)
Theorem C99_mode :
  forall loc nb v, well_shaped loc -> finite_list (t_data loc) -> finite_list v -> List.length v = prod (t_shape loc) ->
    xle (dirac_log_prob (Dirac loc nb) [] v) (dirac_log_prob (Dirac loc nb) [] (t_data (dirac_mode (Dirac loc nb)))) = true.
Proof. exact mode_best. Qed.
Print Assumptions C99_mode.

(* the support has one element, the only value of positive likelihood; the unexpanded form is refused *)
Theorem C99_support :
  forall loc nb t, well_shaped loc -> finite_list (t_data loc) -> dirac_support (Dirac loc nb) true = Ok t ->
    t_shape t = (1%nat :: t_shape loc) /\
    (forall v, finite_list v -> List.length v = prod (t_shape loc) ->
       (dirac_log_prob (Dirac loc nb) [] v <> MInf <-> v = t_data t)) /\
    dirac_support (Dirac loc nb) false = Raise NotImplementedError.
Proof.
  intros loc nb t W F E. injection E as <-. unfold dirac_rsample, expand_front, Dirac. cbn [t_shape t_data d_batch d_event d_loc].
  rewrite firstn_skipn. split; [reflexivity|]. split; [|reflexivity]. intros v Fv L.
  destruct (log_prob_finite loc nb [] v W F Fv L) as [H1 H2]. unfold dirac_rsample, expand_front, Dirac in *. cbn in *.
  rewrite app_nil_r in *. split.
  - intros N. destruct (list_eq_dec xr_eq_dec v (t_data loc)) as [D|D]; [exact D|]. contradiction (N (H2 D)).
  - intros E. rewrite (H1 E). discriminate.
Qed.
Print Assumptions C99_support.

(* perplexity is the exponential of entropy, in every entry *)
Theorem C99_perplexity :
  forall d, t_data (dirac_perplexity d) = map xexp (t_data (dirac_entropy d)) /\ t_shape (dirac_perplexity d) = t_shape (dirac_entropy d).
Proof. intros d. split; reflexivity. Qed.
Print Assumptions C99_perplexity.

(* refuted: torch documents one entropy per batch element *)
Theorem C99_entropy_shape_refuted :
  exists loc nb, well_shaped loc /\ t_shape (dirac_entropy (Dirac loc nb)) <> d_batch (Dirac loc nb).
Proof. exists row_loc, 1%nat. split; [reflexivity|]. discriminate. Qed.
Print Assumptions C99_entropy_shape_refuted.

(* which locations are accepted (no empty axis) *)
Theorem C99_accepts :
  forall loc nb validate, prod (t_shape loc) <> 0%nat ->
    ((exists d, dirac_new loc nb validate = Ok d) <->
     (validate = Some false \/ (t_shape loc <> [] /\ ~ In NaN (t_data loc)))) /\
    (forall d, dirac_new loc nb validate = Ok d -> d = Dirac loc nb) /\
    (forall e, dirac_new loc nb validate = Raise e -> e = ValueError).
Proof.
  intros loc nb validate P.
  assert (Q : t_shape loc <> [] -> prod (removelast (t_shape loc)) <> 0%nat).
  { intros N H. apply P. rewrite (app_removelast_last 0%nat N), prod_app, H. reflexivity. }
  assert (Nn : existsb isnan (t_data loc) = true <-> In NaN (t_data loc)).
  { rewrite existsb_exists. split; [intros (x & Hi & Hx); destruct x; try discriminate; exact Hi|intros Hi; exists NaN; auto]. }
  unfold dirac_new.
  assert (R : (match t_shape loc with [] => Raise ValueError
               | sh => if Nat.eqb (prod (removelast sh)) 0 then Raise RuntimeError
                       else if existsb isnan (t_data loc) then Raise ValueError else Ok (Dirac loc nb) end : Result dirac) =
              if match t_shape loc with [] => true | _ => existsb isnan (t_data loc) end then Raise ValueError else Ok (Dirac loc nb)).
  { destruct (t_shape loc) as [|n sh] eqn:Es; [reflexivity|]. specialize (Q ltac:(discriminate)).
    rewrite (proj2 (Nat.eqb_neq _ 0) Q). reflexivity. }
  assert (B : (match t_shape loc with [] => true | _ => existsb isnan (t_data loc) end = false) <-> (t_shape loc <> [] /\ ~ In NaN (t_data loc))).
  { destruct (t_shape loc) as [|n sh]; [split; [discriminate|intros [K _]; contradiction]|].
    rewrite <- Nn. destruct (existsb _ _); split; [discriminate|intros [_ K]; exfalso; auto|intros _; split; discriminate|reflexivity]. }
  set (bad := match t_shape loc with [] => true | _ => existsb isnan (t_data loc) end) in *.
  destruct validate as [[]|]; rewrite ?R; clearbody bad; destruct bad.
  all: repeat split; intros; eauto; try discriminate; try congruence.
  all: repeat match goal with
       | K : exists _, _ |- _ => destruct K
       | K : _ \/ _ |- _ => destruct K
       end; try discriminate; try (apply B in H; discriminate); try (right; apply B; reflexivity); try (left; reflexivity).
Qed.
Print Assumptions C99_accepts.

Example C99_accepts_case :
  (exists d, dirac_new row_loc 1 None = Ok d) /\ dirac_new {| t_shape := [1]%nat; t_data := [NaN] |} 0 None = Raise ValueError /\
  dirac_new {| t_shape := []; t_data := [Fin 1] |} 0 (Some true) = Raise ValueError.
Proof. repeat split. eexists. reflexivity. Qed.

(* ---------- concrete cases of the theorems above, one each ---------- *)
Lemma row_ok : well_shaped row_loc.
Proof. repeat constructor. Qed.
Lemma row_finite : finite_list (t_data row_loc).
Proof. repeat constructor; eexists; reflexivity. Qed.
Example C99_expand_accepts_case : dirac_expand (Dirac row_loc 2) [1; 3]%nat = Raise RuntimeError.
Proof. apply C99_expand_accepts. intros H. apply C99_expand_accepts in H. destruct H as [d H]. destruct C99_expand_case as (_ & _ & _ & _ & F). congruence. Qed.
Example C99_moments_case : rsum (map (fun i => rval (tget (dirac_rsample (Dirac row_loc 1) [5%nat]) (i :: [0; 1]%nat))) (seq 0 5)) / INR 5 = 4.
Proof. exact (proj1 (C99_moments row_loc 1 5 [0; 1]%nat row_ok ltac:(lia) ltac:(repeat constructor))). Qed.
Example C99_mode_case : xle (dirac_log_prob (Dirac row_loc 1) [] [Fin 1; Fin 2]) (dirac_log_prob (Dirac row_loc 1) [] (t_data (dirac_mode (Dirac row_loc 1)))) = true.
Proof. apply (C99_mode row_loc 1); [exact row_ok|exact row_finite|repeat constructor; eexists; reflexivity|reflexivity]. Qed.
Example C99_support_case : exists t, dirac_support (Dirac row_loc 1) true = Ok t /\ dirac_log_prob (Dirac row_loc 1) [] (t_data t) <> MInf.
Proof.
  eexists. split; [reflexivity|]. destruct (C99_support row_loc 1 _ row_ok row_finite eq_refl) as (_ & K & _). apply K; [exact row_finite|reflexivity|reflexivity].
Qed.
