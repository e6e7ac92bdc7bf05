(* Everything that the estimators' fit hands to the robust loss. *)
From Coq Require Import Reals List Bool ZArith String Ascii Arith Lra Lia.
From Verif Require Import PyBase RList XReal CostDecoder_Model OptCond_Model Samplers_Model Samplers_Spec Draws_Proofs Wrap_Model Wrap_Proofs Estim_Model Estim_Proofs.
Import ListNotations.
Local Open Scope R_scope.

Definition located (l : dist) (y : batch) : Prop := match l with LocScale _ loc _ => loc = y | DiracAt loc => loc = y end.

(* what a robust loss has received *)
Record received (d : dual_args) (rho : R) (n : Z) (lr eps sigma l2 : option R) (seed : Z) (n_iter : option steps)
       (xi : batch) (y : option batch) : Prop := {
  r_rho : a_rho d = rho;
  r_n : a_n_samples d = n;
  r_lr : a_lr d = lr;
  r_prodigy : lr = None -> a_adapt d = Some "prodigy"%string;
  r_given_lr : forall r, lr = Some r -> a_adapt d = None;
  r_eps : forall e, eps = Some e -> a_epsilon d = Fin e;
  r_l2 : a_l2reg d = l2;
  r_reduction : a_reduction d = None;
  r_labels : a_has_labels d = true <-> y <> None;
  (* the sampler: seed, standard deviation (given, or half the radius, or one half at radius 0) and centres *)
  r_seed : cs_seed (a_sampler d) = Some seed;
  r_centre : exists f s, cs_data (a_sampler d) = LocScale f xi (Fin s) /\ 0 < s /\
               (forall s', sigma = Some s' -> s = s') /\ (sigma = None -> 0 < rho -> 2 * s = rho) /\ (sigma = None -> rho <= 0 -> 2 * s = 1);
  r_label_centre : forall t, y = Some t -> exists l, cs_labels (a_sampler d) = Some l /\ located l t;
  r_no_label : y = None -> cs_labels (a_sampler d) = None;
  r_steps : forall k, n_iter = Some k -> a_n_iter d = k }.

Lemma dualize_received pf u d seed : dualize pf u = Ok d -> u_seed u = Some seed -> u_reduction u = None ->
  u_adapt u = adapt_of (u_lr u) ->
  received d (u_rho u) (u_n_samples u) (u_lr u) (u_epsilon u) (u_sigma u) (u_l2reg u) seed (u_n_iter u) (u_xi u) (u_labels u).
Proof.
  intros E Hs Hred Ha. unfold dualize in E. destruct (parse_code_torch _ _ _ _ _ _) as [pc|]; [|discriminate]. cbn [bind expert_hyperparams] in E.
  destruct (cost_from_parse_torch _ _ _) as [c|]; [|discriminate]. cbn [bind] in E.
  destruct (match u_labels u with Some _ => _ | None => _ end) as [s|] eqn:S; [|discriminate]. cbn [bind] in E. injection E as <-.
  assert (K : exists f, cs_data s = LocScale f (u_xi u) (Fin (expert_sigma (u_rho u) (u_sigma u) SIGMA_FACTOR)) /\ 0 < expert_sigma (u_rho u) (u_sigma u) SIGMA_FACTOR /\
    cs_seed s = u_seed u /\ (forall t, u_labels u = Some t -> exists l, cs_labels s = Some l /\ located l t) /\ (u_labels u = None -> cs_labels s = None)).
  { destruct (u_labels u) as [t|].
    - pose proof (labeled_inv _ _ _ _ _ _ S) as (f & l & _ & Hp & D & L & CL). exists f. repeat split; try assumption.
      + unfold labeled_init in S. destruct (sampler_data _ _ _); [|discriminate]. destruct (sampler_labels _ _ _) as [[?|]|]; try discriminate. cbn in S. injection S as <-. reflexivity.
      + intros t' E'. injection E' as <-. exists l. split; [exact CL|]. unfold sampler_labels in L. destruct (scost_of c) as [p w|p w k].
        * injection L as <-. reflexivity.
        * destruct (xeq k PInf); [injection L as <-; reflexivity|]. destruct (family p w); [|discriminate]. unfold loc_scale in L.
          destruct (xlt _ _); [|discriminate]. cbn in L. injection L as <-. reflexivity.
      + discriminate.
    - pose proof (nolabels_inv _ _ _ _ _ S) as (f & _ & Hp & D & L). exists f. repeat split; try assumption.
      + unfold nolabels_init in S. destruct (sampler_data _ _ _); [|discriminate]. cbn in S. injection S as <-. reflexivity.
      + discriminate.
      + intros _. exact L. }
  destruct K as (f & D & P & Sd & L1 & L2).
  constructor; cbn [a_rho a_n_samples a_lr a_adapt a_epsilon a_l2reg a_reduction a_has_labels a_sampler a_n_iter].
  - reflexivity.
  - reflexivity.
  - reflexivity.
  - intros E. rewrite Ha, E. reflexivity.
  - intros r E. rewrite Ha, E. reflexivity.
  - intros e E. unfold expert_epsilon. rewrite E. reflexivity.
  - reflexivity.
  - exact Hred.
  - destruct (u_labels u); split; intros; congruence.
  - congruence.
  - exists f, (expert_sigma (u_rho u) (u_sigma u) SIGMA_FACTOR). split; [exact D|]. split; [exact P|]. unfold expert_sigma, SIGMA_FACTOR. repeat split.
    + intros s' ->. reflexivity.
    + intros -> Hr. apply Rltb_true in Hr. rewrite Hr. lra.
    + intros -> Hr. destruct (Rltb 0 (u_rho u)) eqn:Q; [apply Rltb_true in Q; lra|lra].
  - exact L1.
  - exact L2.
  - intros k ->. reflexivity.
Qed.

Lemma set_steps_received d rho n lr eps sigma l2 seed xi y k : received d rho n lr eps sigma l2 seed None xi y -> received (set_n_iter k d) rho n lr eps sigma l2 seed None xi y.
Proof. intros []. constructor; auto; try discriminate. Qed.

Lemma nv_received pf a X d t : nv_dispatch pf a X = Ok (FTorch d t) -> t = None /\ a_reduce_spatial d = true /\
  received d (nv_rho a) (nv_n_zeta a) (nv_lr a) (Some (nv_solver_reg a)) None None (nv_seed a) (nv_n_iter a) (map (fun r => [rmean r]) X) None.
Proof.
  unfold nv_dispatch. destruct (decode_cost pf (nv_cost a)); simpl; [|discriminate]. destruct (String.eqb (nv_solver_name a) "entropic"); [discriminate|].
  destruct (contains "torch" (nv_solver_name a)); [|destruct (String.eqb (nv_solver_name a) "dedicated"); discriminate].
  destruct (dualize pf _) eqn:E; simpl; [|discriminate]. intros H. injection H as <- <-.
  split; [reflexivity|]. split; [apply dualize_fields in E; destruct E as (_ & _ & E & _); exact E|]. apply (dualize_received _ _ _ _ E); reflexivity.
Qed.
Lemma pf_received pf a X d t : pf_dispatch pf a X = Ok (FTorch d t) -> t = None /\ a_reduce_spatial d = true /\
  received d (pf_rho a) (pf_n_zeta a) (pf_lr a) (Some (pf_solver_reg a)) None (Some 0) (pf_seed a) (pf_n_iter a) X None.
Proof.
  unfold pf_dispatch. destruct (decode_cost pf (pf_cost a)); simpl; [|discriminate]. destruct (negb (Nat.eqb _ _)); [discriminate|].
  destruct (String.eqb (pf_solver_name a) "entropic"); [discriminate|]. destruct (String.eqb (pf_solver_name a) "dedicated"); [discriminate|].
  destruct (contains "torch" (pf_solver_name a)); [|discriminate].
  destruct (dualize pf _) eqn:E; simpl; [|discriminate]. intros H. injection H as <- <-.
  split; [reflexivity|]. split; [apply dualize_fields in E; destruct E as (_ & _ & E & _); exact E|]. apply (dualize_received _ _ _ _ E); reflexivity.
Qed.
Lemma wb_received pf a X y d t : wb_dispatch pf a X y = Ok (FTorch d t) -> t = None /\ a_reduce_spatial d = true /\
  received d (wb_rho a) (wb_n_zeta a) (wb_lr a) (Some (wb_solver_reg a)) (Some (wb_sampler_reg a)) (Some (wb_l2_reg a)) (wb_seed a) (wb_n_iter a) X (Some (map (fun v => [v]) y)) /\
  (wb_n_iter a = None -> a_n_iter d = SInt 300).
Proof.
  unfold wb_dispatch. destruct (String.eqb (wb_solver_name a) "entropic"); [discriminate|]. destruct (contains "torch" (wb_solver_name a)); [|discriminate].
  destruct (dualize pf _) as [d0|] eqn:E; simpl; [|discriminate]. intros H. injection H as <- <-.
  assert (Q : received d0 (wb_rho a) (wb_n_zeta a) (wb_lr a) (Some (wb_solver_reg a)) (Some (wb_sampler_reg a)) (Some (wb_l2_reg a)) (wb_seed a) (wb_n_iter a) X (Some (map (fun v => [v]) y)))
    by (apply (dualize_received _ _ _ _ E); reflexivity).
  apply dualize_fields in E. destruct E as (_ & _ & E & _). cbn in E.
  destruct (wb_n_iter a); (split; [reflexivity|]); (split; [exact E|]); split; try discriminate; try exact Q; try reflexivity. apply set_steps_received. exact Q.
Qed.
Lemma lr_received pf a X y d t : lr_dispatch pf a X y = Ok (FTorch d t) -> a_reduce_spatial d = true /\
  received d (lr_rho a) (lr_n_zeta a) (lr_lr a) (lr_solver_reg a) (lr_sampler_reg a) (Some (lr_l2_reg a)) (lr_seed a) (lr_n_iter a) X (Some (map (fun v => [v]) y)).
Proof.
  unfold lr_dispatch. destruct (decode_cost pf (lr_cost a)); simpl; [|discriminate]. destruct (String.eqb (lr_solver_name a) "entropic"); [discriminate|].
  destruct (contains "torch" (lr_solver_name a)); [|destruct (String.eqb (lr_solver_name a) "dedicated"); discriminate].
  destruct (dualize pf _) eqn:E; simpl; [|discriminate]. intros H. injection H as <- <-.
  split; [apply dualize_fields in E; destruct E as (_ & _ & E & _); exact E|]. apply (dualize_received _ _ _ _ E); reflexivity.
Qed.
Lemma lg_received pf a X y d t : lg_dispatch pf a X y = Ok (FTorch d t) ->
  exists targets, lg_targets y = Ok targets /\ (a_reduce_spatial d = true <-> List.length (unique_labels y) = 2%nat) /\
  received d (lg_rho a) (lg_n_zeta a) (lg_lr a) (lg_solver_reg a) (lg_sampler_reg a) (Some (lg_l2_reg a)) (lg_seed a) (lg_n_iter a) X (Some targets).
Proof.
  unfold lg_dispatch. destruct (lg_targets y) as [ts|]; simpl; [|discriminate]. destruct (decode_cost pf (lg_cost a)); simpl; [|discriminate].
  destruct (String.eqb (lg_solver_name a) "entropic"); [discriminate|].
  destruct (String.eqb (lg_solver_name a) "dedicated"); [match goal with |- context [if ?c then Raise _ else Ok _] => destruct c end; discriminate|].
  destruct (contains "torch" (lg_solver_name a)); [|discriminate].
  destruct (dualize pf _) eqn:E; simpl; [|discriminate]. intros H. injection H as <- <-. exists ts. split; [reflexivity|].
  split; [|apply (dualize_received _ _ _ _ E); reflexivity].
  apply dualize_fields in E. destruct E as (_ & _ & E & _). cbn [u_reduces] in E. rewrite E, negb_involutive. apply Nat.eqb_eq.
Qed.

(* the width of C is looked at exactly when both C and d are given *)
Lemma pf_columns_check pf a X C dd : pf_C a = Some C -> pf_d a = Some dd -> is_ok (decode_cost pf (pf_cost a)) = true ->
  width C <> width X -> pf_dispatch pf a X = Raise ValueError.
Proof.
  intros HC HD K N. unfold pf_dispatch. destruct (decode_cost pf (pf_cost a)); [|discriminate]. cbn [bind]. unfold pf_columns. rewrite HC, HD.
  apply Nat.eqb_neq in N. rewrite N. reflexivity.
Qed.
Definition pf_without (a : pf_args) : pf_args :=
  {| pf_rho := pf_rho a; pf_eta := pf_eta a; pf_alpha := pf_alpha a; pf_C := None; pf_d := None; pf_fit_intercept := pf_fit_intercept a;
     pf_cost := pf_cost a; pf_solver_name := pf_solver_name a; pf_solver_reg := pf_solver_reg a; pf_reparam := pf_reparam a; pf_lr := pf_lr a;
     pf_n_zeta := pf_n_zeta a; pf_seed := pf_seed a; pf_n_iter := pf_n_iter a |}.
Lemma pf_columns_unchecked pf a X : (pf_C a = None \/ pf_d a = None \/ exists C, pf_C a = Some C /\ width C = width X) ->
  pf_dispatch pf a X = pf_dispatch pf (pf_without a) X.
Proof.
  intros H. unfold pf_dispatch. cbn [pf_without pf_cost pf_solver_name pf_rho pf_n_zeta pf_seed pf_lr pf_solver_reg pf_n_iter].
  assert (E : pf_columns a (width X) = width X).
  { unfold pf_columns. destruct (pf_C a) as [C|]; [|reflexivity]. destruct (pf_d a); [|reflexivity]. destruct H as [H|[H|(C' & H & W)]]; congruence. }
  rewrite E. cbn [pf_columns pf_without pf_C pf_d]. reflexivity.
Qed.

