(* Proofs about the estimators: dispatch and labels. *)
From Coq Require Import Reals List Bool ZArith String Ascii Arith Lra Lia Sorted.
From Verif Require Import PyBase RList XReal CostDecoder_Model OptCond_Model Samplers_Model Samplers_Spec Wrap_Model Wrap_Proofs Estim_Model.
Import ListNotations.
Local Open Scope R_scope.

Lemma dualize_fields pyfloat u a : dualize pyfloat u = Ok a ->
  a_post a = u_post u /\ a_has_labels a = (match u_labels u with None => false | Some _ => true end) /\ a_reduce_spatial a = negb (u_reduces u) /\
  a_l2reg a = u_l2reg u /\ a_n_iter a = (match u_n_iter u with None => if u_post u then SPair 200 2800 else SPair 100 10 | Some n => n end) /\
  a_rho a = u_rho u /\ a_n_samples a = u_n_samples u /\ a_lr a = u_lr u /\ a_adapt a = u_adapt u.
Proof.
  unfold dualize. destruct (parse_code_torch _ _ _ _ _ _); simpl; [|discriminate]. destruct (cost_from_parse_torch _ _ _); simpl; [|discriminate].
  destruct (match u_labels u with Some _ => _ | None => _ end); simpl; [|discriminate]. intros E. injection E as <-. repeat split.
Qed.

(* ---------- which sampling scheme ---------- *)
Lemma nv_scheme pf a X d t : nv_dispatch pf a X = Ok (FTorch d t) -> a_post d = String.eqb (nv_solver_name a) "entropic_torch_post".
Proof.
  unfold nv_dispatch. destruct (decode_cost pf (nv_cost a)); simpl; [|discriminate]. destruct (String.eqb (nv_solver_name a) "entropic"); [discriminate|].
  destruct (contains "torch" (nv_solver_name a)); [|destruct (String.eqb (nv_solver_name a) "dedicated"); discriminate].
  destruct (dualize pf _) eqn:E; simpl; [|discriminate]. intros H. injection H as <- _. apply dualize_fields in E. destruct E as (E & _). exact E.
Qed.
Lemma pf_scheme pf a X d t : pf_dispatch pf a X = Ok (FTorch d t) -> a_post d = negb (contains "post" (pf_solver_name a)).
Proof.
  unfold pf_dispatch. destruct (decode_cost pf (pf_cost a)); simpl; [|discriminate]. destruct (negb (Nat.eqb _ _)); [discriminate|].
  destruct (String.eqb (pf_solver_name a) "entropic"); [discriminate|]. destruct (String.eqb (pf_solver_name a) "dedicated"); [discriminate|].
  destruct (contains "torch" (pf_solver_name a)); [|discriminate].
  destruct (dualize pf _) eqn:E; simpl; [|discriminate]. intros H. injection H as <- _. apply dualize_fields in E. destruct E as (E & _). exact E.
Qed.
Lemma wb_scheme pf a X y d t : wb_dispatch pf a X y = Ok (FTorch d t) -> a_post d = post_name (wb_solver_name a).
Proof.
  unfold wb_dispatch. destruct (String.eqb (wb_solver_name a) "entropic"); [discriminate|].
  destruct (contains "torch" (wb_solver_name a)); [|discriminate].
  destruct (dualize pf _) eqn:E; simpl; [|discriminate]. intros H. injection H as <- _. apply dualize_fields in E. destruct E as (E & _).
  destruct (wb_n_iter a); exact E.
Qed.
Lemma lr_scheme pf a X y d t : lr_dispatch pf a X y = Ok (FTorch d t) -> a_post d = post_name (lr_solver_name a) /\ t = Some (width X, 1%nat, true).
Proof.
  unfold lr_dispatch. destruct (decode_cost pf (lr_cost a)); simpl; [|discriminate]. destruct (String.eqb (lr_solver_name a) "entropic"); [discriminate|].
  destruct (contains "torch" (lr_solver_name a)); [|destruct (String.eqb (lr_solver_name a) "dedicated"); discriminate].
  destruct (dualize pf _) eqn:E; simpl; [|discriminate]. intros H. injection H as <- <-. apply dualize_fields in E. destruct E as (E & _). split; [exact E|reflexivity].
Qed.
Lemma lg_scheme pf a X y d t : lg_dispatch pf a X y = Ok (FTorch d t) ->
  a_post d = post_name (lg_solver_name a) /\
  t = Some (width X, if (List.length (unique_labels y) =? 2)%nat then 1%nat else List.length (unique_labels y), lg_fit_intercept a).
Proof.
  unfold lg_dispatch. destruct (lg_targets y); simpl; [|discriminate]. destruct (decode_cost pf (lg_cost a)); simpl; [|discriminate].
  destruct (String.eqb (lg_solver_name a) "entropic"); [discriminate|].
  destruct (String.eqb (lg_solver_name a) "dedicated"); [match goal with |- context [if ?c then Raise _ else Ok _] => destruct c end; discriminate|].
  destruct (contains "torch" (lg_solver_name a)); [|discriminate].
  destruct (dualize pf _) eqn:E; simpl; [|discriminate]. intros H. injection H as <- <-. apply dualize_fields in E. destruct E as (E & _). split; [exact E|reflexivity].
Qed.

(* ---------- labels ---------- *)
Lemma insert_in v l x : In x (insert_label v l) <-> x = v \/ In x l.
Proof.
  induction l as [|w l IH]; simpl; [intuition|]. destruct (v <? w)%Z eqn:E; [simpl; intuition|]. destruct (v =? w)%Z eqn:E2; [apply Z.eqb_eq in E2; subst; simpl; intuition|].
  simpl. rewrite IH. intuition.
Qed.
Lemma insert_sorted v l : StronglySorted Z.lt l -> StronglySorted Z.lt (insert_label v l).
Proof.
  induction 1 as [|w l S IH F]; simpl; [repeat constructor|]. destruct (v <? w)%Z eqn:E.
  - apply Z.ltb_lt in E. constructor; [constructor; assumption|]. constructor; [exact E|]. eapply Forall_impl; [|exact F]. simpl. intros; lia.
  - destruct (v =? w)%Z eqn:E2; [constructor; assumption|]. apply Z.ltb_ge in E. apply Z.eqb_neq in E2. constructor; [exact IH|].
    apply Forall_forall. intros x Hx. apply insert_in in Hx as [-> |Hx]; [lia|]. rewrite Forall_forall in F. auto.
Qed.
Lemma unique_in y x : In x (unique_labels y) <-> In x y.
Proof. induction y as [|v y IH]; simpl; [reflexivity|]. rewrite insert_in, IH. intuition. Qed.
Lemma unique_sorted y : StronglySorted Z.lt (unique_labels y).
Proof. induction y as [|v y IH]; simpl; [constructor|apply insert_sorted; exact IH]. Qed.

Lemma two_classes y : List.length (unique_labels y) = 2%nat ->
  exists c0 c1, unique_labels y = [c0; c1] /\ (c0 < c1)%Z /\ forall v, In v y <-> v = c0 \/ v = c1.
Proof.
  intros L. destruct (unique_labels y) as [|c0 [|c1 [|]]] eqn:E; try discriminate. exists c0, c1. split; [reflexivity|]. split.
  - pose proof (unique_sorted y) as S. rewrite E in S. apply StronglySorted_inv in S as [_ F]. apply Forall_inv in F. exact F.
  - intros v. rewrite <- unique_in, E. simpl. intuition.
Qed.

Lemma targets_two y c0 c1 : unique_labels y = [c0; c1] -> lg_targets y = Ok (map (fun v => [if (v =? c0)%Z then -1 else 1]) y).
Proof.
  intros E. unfold lg_targets. rewrite E. cbn [List.length]. f_equal. apply map_ext_in. intros v Hv. rewrite <- unique_in, E in Hv. f_equal.
  cbn [index_of]. destruct (v =? c0)%Z eqn:E0; [simpl INR; destruct (Reqb 0 0) eqn:Q; [reflexivity|rewrite Reqb_false in Q; lra]|].
  apply Z.eqb_neq in E0. destruct Hv as [Hv|[Hv|[]]]; [congruence|]. subst. rewrite Z.eqb_refl. simpl INR. destruct (Reqb 1 0) eqn:Q; [rewrite Reqb_true in Q; lra|reflexivity].
Qed.

Lemma targets_few y : (List.length (unique_labels y) < 2)%nat -> lg_targets y = Raise ValueError.
Proof. intros L. unfold lg_targets. destruct (List.length (unique_labels y)) as [|[|[|]]]; try lia; reflexivity. Qed.

Lemma targets_many y : (2 < List.length (unique_labels y))%nat -> lg_targets y = Ok (map (fun v => map (fun c => if (v =? c)%Z then 1 else 0) (unique_labels y)) y).
Proof. intros L. unfold lg_targets. destruct (List.length (unique_labels y)) as [|[|[|]]]; try lia; reflexivity. Qed.

Lemma one_hot v l : StronglySorted Z.lt l -> In v l -> rsum (map (fun c => if (v =? c)%Z then 1 else 0) l) = 1.
Proof.
  induction 1 as [|w l S IH F]; intros Hv; [destruct Hv|]. simpl. destruct (v =? w)%Z eqn:E.
  - apply Z.eqb_eq in E. subst w. assert (Z0 : rsum (map (fun c => if (v =? c)%Z then 1 else 0) l) = 0); [|lra].
    clear -F. induction F as [|x l Hx F IH]; [reflexivity|]. simpl. destruct (v =? x)%Z eqn:E; [apply Z.eqb_eq in E; lia|]. lra.
  - destruct Hv as [Hv|Hv]; [subst; rewrite Z.eqb_refl in E; discriminate|]. rewrite (IH Hv). lra.
Qed.

(* ---------- unknown names ---------- *)
Definition is_err {A} (r : Result A) : Prop := exists e, r = Raise e.

Lemma contains_app_r sub a b : contains sub b = true -> contains sub (a ++ b)%string = true.
Proof. intros H. induction a as [|c a IH]; [exact H|]. cbn [String.append contains]. rewrite IH. destruct (String.prefix _ _); reflexivity. Qed.

(* sorted lists with the same elements are equal *)
Lemma sorted_same : forall l m, StronglySorted Z.lt l -> StronglySorted Z.lt m -> (forall v, In v l <-> In v m) -> l = m.
Proof.
  induction l as [|a l IH]; intros m Sl Sm H.
  - destruct m as [|b m]; [reflexivity|]. destruct (proj2 (H b)); left; reflexivity.
  - destruct m as [|b m]; [destruct (proj1 (H a)); left; reflexivity|].
    apply StronglySorted_inv in Sl as [Sl Fl]. apply StronglySorted_inv in Sm as [Sm Fm]. rewrite Forall_forall in Fl, Fm.
    assert (E : a = b).
    { destruct (proj1 (H a)) as [E|E]; [left; reflexivity|auto|]. destruct (proj2 (H b)) as [E'|E']; [left; reflexivity|auto|].
      apply Fm in E. apply Fl in E'. lia. }
    subst b. f_equal. apply IH; auto. intros v. split; intros Hv.
    + destruct (proj1 (H v)) as [E|E]; [right; exact Hv| |exact E]. subst v. apply Fl in Hv. lia.
    + destruct (proj2 (H v)) as [E|E]; [right; exact Hv| |exact E]. subst v. apply Fm in Hv. lia.
Qed.

Lemma unique_of y l : StronglySorted Z.lt l -> (forall v, In v y <-> In v l) -> unique_labels y = l.
Proof. intros S H. apply sorted_same; [apply unique_sorted|exact S|]. intros v. rewrite unique_in. apply H. Qed.

Lemma dk_ge0 : x_ge0 dk = true.
Proof. unfold x_ge0, dk, xle; cbn [xlt]; replace (Rltb 0 100000000) with true by (symmetry; apply Rltb_true; lra); reflexivity. Qed.

(* the default cost of the labelled estimators *)
Lemma decode_22 pf : pf "2"%string = Some (Fin 2) -> exists c, decode_cost pf "t-NLC-2-2" = Ok c.
Proof. intros E. unfold decode_cost, cost_from_str. cbn -[dk x_ge0]. unfold to_float. rewrite E. cbn -[dk x_ge0]. unfold NormLabelCost. rewrite dk_ge0. simpl. eauto. Qed.

Lemma dualize_22 pf u y : pf "2"%string = Some (Fin 2) -> u_cost u = Some "t-NLC-2-2"%string -> u_labels u = Some y ->
  0 < expert_sigma (u_rho u) (u_sigma u) SIGMA_FACTOR -> exists a, dualize pf u = Ok a.
Proof.
  intros E C L S.
  assert (P : parse_code_torch xr pf (Fin 2) dk (u_cost u) (match u_labels u with None => false | Some _ => true end) = Ok (mkParsed "t" "NLC" (Fin 2) (Fin 2) dk)).
  { rewrite C. unfold parse_code_torch. cbn -[dk]. unfold to_float. rewrite E. reflexivity. }
  assert (Q : cost_from_parse_torch xr x_ge0 (mkParsed "t" "NLC" (Fin 2) (Fin 2) dk) = Ok (mkCost NLC (Fin 2) (Fin 2) (Some dk) "Kappa-norm")).
  { unfold cost_from_parse_torch. cbn [p_id p_kappa p_type p_power]. cbn [String.eqb Ascii.eqb Bool.eqb]. unfold NormLabelCost. rewrite dk_ge0. reflexivity. }
  destruct (dualize_outcome pf u _ _ P Q S) as [H _]. destruct H as (a & Ha & _); [right; split; reflexivity|]. exists a. exact Ha.
Qed.

(* the default cost of NewsVendor *)
Lemma decode_12 pf : pf "1"%string = Some (Fin 1) -> pf "2"%string = Some (Fin 2) -> exists c, decode_cost pf "t-NC-1-2" = Ok c.
Proof. intros E1 E2. unfold decode_cost, cost_from_str. cbn -[dk x_ge0]. unfold to_float. rewrite E1, E2. cbn -[dk x_ge0]. unfold NormCost. eauto. Qed.
Lemma decode_11 pf : pf "1"%string = Some (Fin 1) -> exists c, decode_cost pf "t-NC-1-1" = Ok c.
Proof. intros E1. unfold decode_cost, cost_from_str. cbn -[dk x_ge0]. unfold to_float. rewrite E1. cbn -[dk x_ge0]. unfold NormCost. eauto. Qed.
Lemma dualize_12 pf u : pf "1"%string = Some (Fin 1) -> pf "2"%string = Some (Fin 2) -> u_cost u = Some "t-NC-1-2"%string -> u_labels u = None ->
  0 < expert_sigma (u_rho u) (u_sigma u) SIGMA_FACTOR -> exists a, dualize pf u = Ok a.
Proof.
  intros E1 E2 C L S.
  assert (P : parse_code_torch xr pf (Fin 2) dk (u_cost u) (match u_labels u with None => false | Some _ => true end) = Ok (mkParsed "t" "NC" (Fin 1) (Fin 2) dk)).
  { rewrite C. unfold parse_code_torch. cbn -[dk]. unfold to_float. rewrite E1, E2. reflexivity. }
  assert (Q : cost_from_parse_torch xr x_ge0 (mkParsed "t" "NC" (Fin 1) (Fin 2) dk) = Ok (mkCost NC (Fin 2) (Fin 1) None "Norm")) by reflexivity.
  destruct (dualize_outcome pf u _ _ P Q S) as [H _]. destruct H as (a & Ha & _); [left; split; [reflexivity|auto]|]. exists a. exact Ha.
Qed.

(* ---------- the hyperparameters that reach the dual loss ---------- *)
Lemma passed_on pf X d t :
    (forall a, nv_dispatch pf a X = Ok (FTorch d t) -> a_rho d = nv_rho a /\ a_n_samples d = nv_n_zeta a /\ a_lr d = nv_lr a /\ a_adapt d = adapt_of (nv_lr a)) /\
    (forall a, pf_dispatch pf a X = Ok (FTorch d t) -> a_rho d = pf_rho a /\ a_n_samples d = pf_n_zeta a /\ a_lr d = pf_lr a /\ a_adapt d = adapt_of (pf_lr a)) /\
    (forall a y, wb_dispatch pf a X y = Ok (FTorch d t) -> a_rho d = wb_rho a /\ a_n_samples d = wb_n_zeta a /\ a_lr d = wb_lr a /\ a_adapt d = adapt_of (wb_lr a) /\ a_l2reg d = Some (wb_l2_reg a)) /\
    (forall a y, lr_dispatch pf a X y = Ok (FTorch d t) -> a_rho d = lr_rho a /\ a_n_samples d = lr_n_zeta a /\ a_lr d = lr_lr a /\ a_adapt d = adapt_of (lr_lr a) /\ a_l2reg d = Some (lr_l2_reg a)) /\
    (forall a y, lg_dispatch pf a X y = Ok (FTorch d t) -> a_rho d = lg_rho a /\ a_n_samples d = lg_n_zeta a /\ a_lr d = lg_lr a /\ a_adapt d = adapt_of (lg_lr a) /\ a_l2reg d = Some (lg_l2_reg a)).
Proof.
  repeat apply conj; intros a.
  - unfold nv_dispatch. destruct (decode_cost pf (nv_cost a)); simpl; [|discriminate]. destruct (String.eqb (nv_solver_name a) "entropic"); [discriminate|].
    destruct (contains "torch" (nv_solver_name a)); [|destruct (String.eqb (nv_solver_name a) "dedicated"); discriminate].
    destruct (dualize pf _) eqn:E; simpl; [|discriminate]. intros H. injection H as <- _. apply dualize_fields in E. simpl in E. tauto.
  - unfold pf_dispatch. destruct (decode_cost pf (pf_cost a)); simpl; [|discriminate]. destruct (negb (Nat.eqb _ _)); [discriminate|].
    destruct (String.eqb (pf_solver_name a) "entropic"); [discriminate|]. destruct (String.eqb (pf_solver_name a) "dedicated"); [discriminate|].
    destruct (contains "torch" (pf_solver_name a)); [|discriminate].
    destruct (dualize pf _) eqn:E; simpl; [|discriminate]. intros H. injection H as <- _. apply dualize_fields in E. simpl in E. tauto.
  - intros y. unfold wb_dispatch. destruct (String.eqb (wb_solver_name a) "entropic"); [discriminate|]. destruct (contains "torch" (wb_solver_name a)); [|discriminate].
    destruct (dualize pf _) eqn:E; simpl; [|discriminate]. intros H. injection H as <- _. apply dualize_fields in E. simpl in E. destruct (wb_n_iter a); simpl; tauto.
  - intros y. unfold lr_dispatch. destruct (decode_cost pf (lr_cost a)); simpl; [|discriminate]. destruct (String.eqb (lr_solver_name a) "entropic"); [discriminate|].
    destruct (contains "torch" (lr_solver_name a)); [|destruct (String.eqb (lr_solver_name a) "dedicated"); discriminate].
    destruct (dualize pf _) eqn:E; simpl; [|discriminate]. intros H. injection H as <- _. apply dualize_fields in E. simpl in E. tauto.
  - intros y. unfold lg_dispatch. destruct (lg_targets y); simpl; [|discriminate]. destruct (decode_cost pf (lg_cost a)); simpl; [|discriminate].
    destruct (String.eqb (lg_solver_name a) "entropic"); [discriminate|].
    destruct (String.eqb (lg_solver_name a) "dedicated"); [match goal with |- context [if ?c then Raise _ else Ok _] => destruct c end; discriminate|].
    destruct (contains "torch" (lg_solver_name a)); [|discriminate].
    destruct (dualize pf _) eqn:E; simpl; [|discriminate]. intros H. injection H as <- _. apply dualize_fields in E. simpl in E. tauto.
Qed.
