(* C124: a fit goes through when nothing outside fails; together with C91, C122 and C124, which start from a fit that succeeded. *)
From Coq Require Import Reals List Bool Arith String Lia Lra.
From Verif Require Import PyBase RList XReal Estim_Model Tuner_Model Lifecycle_Model Lifecycle_Spec Lifecycle_Proofs Props_Lifecycle.
Import ListNotations.
Local Open Scope string_scope.

(* check_array or check_X_y, cost_from_str, the columns of C, dualize_primal_loss and the solver all succeed *)
Definition outside_ok (x : env) : Prop :=
  v_data x = Ok tt /\ (forall c, v_cost x c = Ok tt) /\ v_columns x = Ok tt /\ v_dual x = Ok tt /\ v_solve x = Ok tt.
(* a solver's name that the class knows *)
Definition known (e : estimator) (n : string) : Prop := (n = "dedicated" /\ e <> EWeber) \/ (contains "torch" n = true).
(* enough classes for a classifier, and not too many for the dedicated solver *)
Definition classes_ok (e : estimator) (n : string) (x : env) : Prop := e = ELogistic -> (2 <= v_classes x)%nat /\ (n = "dedicated" -> v_classes x = 2%nat).

Section P.
Variable rf : string -> option R.
Lemma number_float v r : number v = Ok r -> exists q, to_float rf v = Ok q.
Proof. destruct v as [| | | |[]|]; cbn; intros H; try discriminate; eexists; reflexivity. Qed.
Lemma eqb_torch n m : contains "torch" n = true -> contains "torch" m = false -> String.eqb n m = false.
Proof. intros A B. apply String.eqb_neq. intros ->. congruence. Qed.

Theorem C124_fit_succeeds : forall e args n x s, init e args = Ok s -> args "solver" = PStr n -> known e n -> outside_ok x -> classes_ok e n x ->
  exists s', fit rf e x s = (s', Ok tt).
Proof.
  intros e args n x s I Hn K (O1 & O2 & O3 & O4 & O5) C. destruct (init_ok _ _ _ I) as [Q ->]. unfold init_checks in Q.
  destruct (number (args "rho")) as [r|] eqn:N; [|discriminate]. destruct (number_float _ _ N) as [f F].
  destruct x as [k vd vc vo vu vs cl z]. unfold classes_ok in C; cbn in O1, O2, O3, O4, O5, C. subst vd vo vu vs.
  assert (E : String.eqb n "entropic" = false) by (destruct K as [[-> _]|T]; [reflexivity|apply eqb_torch; [exact T|reflexivity]]).
  assert (D : (n = "dedicated" /\ e <> EWeber) \/ (contains "torch" n = true /\ String.eqb n "dedicated" = false))
    by (destruct K as [H|T]; [left; exact H|right; split; [exact T|apply eqb_torch; [exact T|reflexivity]]]).
  clear K I.
  assert (P : e = EPortfolio -> exists a b c, to_float rf (args "eta") = Ok a /\ to_float rf (args "alpha") = Ok b /\ to_float rf (args "solver_reg") = Ok c).
  { intros ->. cbn [bind] in Q. destruct (refuse (Rltb r 0)) as [[]|]; cbn [bind] in Q; [|discriminate].
    destruct (number (args "eta")) as [a|] eqn:Na; cbn [bind] in Q; [|discriminate]. destruct (refuse (Rltb a 0)) as [[]|]; cbn [bind] in Q; [|discriminate].
    destruct (number (args "alpha")) as [b|] eqn:Nb; cbn [bind] in Q; [|discriminate]. destruct (refuse (_ || _)) as [[]|]; cbn [bind] in Q; [|discriminate].
    destruct (number (args "solver_reg")) as [c|] eqn:Nc; cbn [bind] in Q; [|discriminate].
    destruct (number_float _ _ Na) as [a' Ha], (number_float _ _ Nb) as [b' Hb], (number_float _ _ Nc) as [c' Hc]. exists a', b', c'. auto. }
  clear Q N.
  destruct (is_none (args "opt_cond")) eqn:Oc.
  all: destruct e; (destruct D as [[-> D]|[T D]]; [try (exfalso; apply D; reflexivity)|]).
  all: try (destruct (P eq_refl) as (a & b & c & Pa & Pb & Pc)).
  all: try (destruct (C eq_refl) as [C1 C2]).
  all: try (specialize (C2 eq_refl); subst cl).
  all: try (destruct cl as [|[|cl]]; [lia|lia|]).
  all: destruct z.
  all: eexists; cbn [fit]; unfold nv_fit, pf_fit, wb_fit, lr_fit, lg_fit.
  all: repeat progress (unfold bnd, lift, get, set, ret, fail, fit_rho, fit_float, fit_cost, fit_cond, fit_results, fitted_ok, solver_is, in_solver, nv_dual_var, pf_constraints, lg_encoder;
    cbn; rewrite ?F, ?Hn, ?E, ?O2, ?T, ?D, ?Pa, ?Pb, ?Pc, ?Oc).
  all: try reflexivity.
Qed.
End P.
Example C124_fit_succeeds_case : exists s, init EPortfolio (typical "entropic_torch") = Ok s /\ typical "entropic_torch" "solver" = PStr "entropic_torch" /\
  known EPortfolio "entropic_torch" /\ outside_ok (good 1 2) /\ classes_ok EPortfolio "entropic_torch" (good 1 2).
Proof.
  destruct (typical_init EPortfolio "entropic_torch") as [s I]. exists s. split; [exact I|]. split; [reflexivity|]. split; [right; reflexivity|].
  split; [repeat split|intros Q; discriminate].
Qed.
Print Assumptions C124_fit_succeeds.
