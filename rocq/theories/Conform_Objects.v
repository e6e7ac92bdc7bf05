(* The project's own tests, run on the models: tests/misc/test_distrib_helper_classes.py and tests/dirac_test.py. Random data of a
   test is arbitrary data here. These are checks of the models against the expectations their authors wrote down; they belong to
   no property. *)
From Coq Require Import Reals List Bool Lra Lia ZArith.
From Verif Require Import PyBase RList XReal.
From Verif Require Distrib_Model.
From Verif Require Import Samplers_Model DiracX_Model.
Import ListNotations.
Local Open Scope R_scope.

(* ---------- test_distrib_helper_classes.py ---------- *)
Section Distrib.
  Import Distrib_Model.
  (* TestDistribution: a base object with with_labels set by hand behaves as the class of that kind *)
  Definition base (k : cls) (s x y : option pyobj) : Distrib_Model.dist := {| kind := k; d_m := 100; f_samples := s; f_x := x; f_y := y |}.
  Example test_getters : forall a,
    get_samples (base WithoutLabels (Some (Arr a)) None None) = Ok (Some (Arr a)) /\ get_samples (base WithLabels None None None) = Raise AttributeError /\
    get_x (base WithLabels None (Some (Arr a)) None) = Ok (Some (Arr a)) /\ get_x (base WithoutLabels None None None) = Raise AttributeError /\
    get_y (base WithLabels None None (Some (Arr a))) = Ok (Some (Arr a)) /\ get_y (base WithoutLabels None None None) = Raise AttributeError.
  Proof. repeat split. Qed.
  Example test_setters : forall k s x y a,
    set_samples (base k s x y) (Arr a) = Ok (base k (Some (Arr a)) x y) /\ set_samples (base k s x y) PyList = Raise TypeError /\
    set_x (base k s x y) (Arr a) = Ok (base k s (Some (Arr a)) y) /\ set_x (base k s x y) PyList = Raise TypeError /\
    set_y (base k s x y) (Arr a) = Ok (base k s x (Some (Arr a))) /\ set_y (base k s x y) PyList = Raise TypeError.
  Proof. repeat split. Qed.
  (* TestEmpiricalDistributionWithLabels.test_init_copies_arrays: writing into the arrays given leaves the stored ones alone *)
  Example test_init_copies_arrays : forall h x y v w h' d, (x < top h)%nat -> (y < top h)%nat -> make_labels h 100 (Arr x) (Arr y) = Ok (h', d) ->
    let after := write (write h' x v) y w in contents after (get_x d) = Some (cells h x) /\ contents after (get_y d) = Some (cells h y).
  Proof.
    intros h x y v w h' d Hx Hy H. cbn in H. injection H as <- <-. cbn -[Nat.eqb].
    repeat match goal with |- context [Nat.eqb ?a ?b] => destruct (Nat.eqb_spec a b); try lia end; split; reflexivity.
  Qed.
End Distrib.

(* ---------- dirac_test.py ---------- *)
(* TestDiracInit *)
Example test_init : forall t n, d_batch (Dirac t n) = firstn n (t_shape t) /\ d_event (Dirac t n) = skipn n (t_shape t) /\ d_loc (Dirac t n) = t.
Proof. repeat split. Qed.
(* TestDiracProperties *)
Example test_properties : forall t n, dirac_mean (Dirac t n) = t /\ dirac_mode (Dirac t n) = t /\ t_shape (dirac_variance (Dirac t n)) = t_shape t /\
  Forall (fun v => v = Fin 0) (t_data (dirac_variance (Dirac t n))) /\ t_data (dirac_entropy (Dirac t n)) = [MInf] /\ t_data (dirac_perplexity (Dirac t n)) = [Fin 0].
Proof. intros t n. repeat split. cbn. rewrite Forall_map. apply Forall_forall. reflexivity. Qed.
(* TestDiracRsample *)
Example test_rsample : forall t n ss, t_shape (dirac_rsample (Dirac t n) ss) = ss ++ d_batch (Dirac t n) ++ d_event (Dirac t n) /\ dirac_rsample (Dirac t n) [] = t.
Proof.
  intros t n ss. split; [reflexivity|]. destruct t as [s d]. unfold dirac_rsample, expand_front. cbn. rewrite firstn_skipn, app_nil_r. reflexivity.
Qed.
(* TestDiracLogProb: 0 at the location, minus infinity one (or 1e-7) away, for every non-empty finite location *)
Definition fin_tensor (s : list nat) (l : list R) : tensor := {| t_shape := s; t_data := map Fin l |}.
Lemma gap_sum (h : R -> R) (l : list R) : fold_right xadd (Fin 0) (map xabs_ (map2 xsub (map Fin (map h l)) (map Fin l))) = Fin (rsum (map (fun a => Rabs (h a - a)) l)).
Proof. induction l as [|a l IH]; cbn [map map2 fold_right]; [reflexivity|]. rewrite IH. cbn. f_equal. Qed.
Lemma loc_data n s l : t_data (dirac_rsample (Dirac (fin_tensor s l) n) []) = map Fin l.
Proof. cbn. apply app_nil_r. Qed.
Example test_log_prob : forall s l n, dirac_log_prob (Dirac (fin_tensor s l) n) [] (map Fin l) = Fin 0 /\
  (l <> [] -> forall c, 0 < c -> dirac_log_prob (Dirac (fin_tensor s l) n) [] (map Fin (map (fun a => a + c) l)) = MInf).
Proof.
  intros s l n. unfold dirac_log_prob. rewrite loc_data. split.
  - pose proof (gap_sum (fun a => a) l) as G. rewrite map_id in G. rewrite G. replace (rsum _) with 0; [unfold xeq; replace (Reqb 0 0) with true by (symmetry; apply Reqb_true; reflexivity); reflexivity|].
    symmetry. clear. induction l as [|a l IH]; cbn; [reflexivity|]. replace (a - a) with 0 by ring. rewrite Rabs_R0. fold (rsum (map (fun a => Rabs (a - a)) l)). rewrite IH. ring.
  - intros N c Hc. rewrite (gap_sum (fun a => a + c) l). assert (P : 0 < rsum (map (fun a => Rabs (a + c - a)) l)).
    { destruct l as [|a l]; [contradiction|]. cbn [map]. change (0 < Rabs (a + c - a) + rsum (map (fun a => Rabs (a + c - a)) l)). assert (0 <= rsum (map (fun a => Rabs (a + c - a)) l)) as Q.
      { clear. induction l as [|a l IH]; [cbn; lra|]. change (0 <= Rabs (a + c - a) + rsum (map (fun a => Rabs (a + c - a)) l)). pose proof (Rabs_pos (a + c - a)). lra. }
      replace (Rabs (a + c - a)) with c; [lra|]. replace (a + c - a) with c by ring. rewrite Rabs_right; lra. }
    unfold xeq. replace (Reqb _ 0) with false by (symmetry; apply Reqb_false; lra). reflexivity.
Qed.
(* TestDiracExpand *)
Example test_expand :
  (forall l, List.length l = 5%nat -> exists d, dirac_expand (Dirac (fin_tensor [5%nat] l) 0) [3%nat] = Ok d /\ d_batch d = [3%nat] /\ d_event d = [5%nat]) /\
  (forall l, List.length l = 5%nat -> exists d, dirac_expand (Dirac (fin_tensor [5%nat] l) 0) [2; 3]%nat = Ok d /\ d_batch d = [2; 3]%nat /\ d_event d = [5%nat]) /\
  (forall l, List.length l = 15%nat -> exists d, dirac_expand (Dirac (fin_tensor [3; 5]%nat l) 1) [7; 3]%nat = Ok d /\ d_batch d = [7; 3]%nat /\ d_event d = [5%nat]).
Proof. repeat split; intros l _; eexists; repeat split. Qed.
(* TestDiracEnumerateSupport *)
Example test_enumerate_support : forall t n, exists v, dirac_support (Dirac t n) true = Ok v /\ t_shape v = [1%nat] ++ d_batch (Dirac t n) ++ d_event (Dirac t n) /\ t_data v = t_data t /\
  dirac_support (Dirac t n) false = Raise NotImplementedError.
Proof. intros t n. eexists. split; [reflexivity|]. cbn. rewrite app_nil_r. repeat split. Qed.
