(* Model of the figure of the classifier comparisons, examples/builtin_models/utils/classifier_comparison.py (identical to
   examples/studying_skwdro/utils/classifier_comparison_utils.py), and of the settings of the examples that draw it. *)
From Coq Require Import Reals List Bool ZArith Arith String.
From Verif Require Import PyBase RList XReal.
Import ListNotations.
Local Open Scope R_scope.

(* int(r) for a float: towards zero *)
Definition py_int (r : R) : Z := if Rleb 0 r then Int_part r else (- Int_part (- r))%Z.
(* f"{int(score*100)}%", :121 *)
Definition percent (r : R) : Z := py_int (r * 100).

(* param = 10; forward_norm, :17-19, and backward_norm, :20-21, entrywise *)
Definition norm_param : R := 10.
Definition forward_norm (a : R) : R := 1 / (1 + exp (- norm_param * (a - 1 / 2))).
Definition backward_norm (a : R) : R := 1 / norm_param * ln (a / (1 - a)) + 1 / 2.

(* the levels argument: a number of them or a list; cs.levels is always a list *)
Inductive levels_arg := Count (n : Z) | Levels (l : list R).

(* a panel with a classifier: its place in the grid, its title, the three percentages, the levels it is drawn with. The scatter plots,
   the limits of the axes and the two panels of data that open each row are left out, but for their places. *)
Record panel := { p_index : nat; p_title : option string; p_text : Z * Z * Z; p_levels : list R }.

Section Compare.
Variables (Train Test Model : Type).
(* classifiers are objects, known by a number; fit is a function of the object's parameters and the data (the seed is a parameter) *)
Variable fit : nat -> Train -> Model.
(* clf.score, f1_score of clf.predict, log_loss of clf.predict_proba_2Class *)
Variables score f1 loss : Model -> Test -> R.
(* contourf(...).levels *)
Variable contour : levels_arg -> Model -> Train * Test -> list R.

(* the fitted models of the objects, the levels and i *)
Record state := { s_models : nat -> option Model; s_levels : levels_arg; s_i : nat }.
Definition put (ms : nat -> option Model) (c : nat) (m : Model) : nat -> option Model := fun d => if Nat.eqb d c then Some m else ms d.

(* :82-90: test_loss_gap; a reference of 0 gives nan or inf, which int refuses (ValueError stands for the OverflowError of inf as well) *)
Definition loss_gap (rob ref : R) : Result R := if Reqb ref 0 then Raise ValueError else Ok ((rob - ref) / Rabs ref).

(* one turn of the inner loop, :77-127; [first] is classifiers[0] and [top] says ds_cnt == 0 *)
Definition turn (first : nat) (top : bool) (ds : Train * Test) (name : string) (clf : nat) (s : state) : Result (panel * state) :=
  let m := fit clf (fst ds) in
  let ms := put (s_models s) clf m in
  let sc := score m (snd ds) in
  let f := f1 m (snd ds) in
  match ms first with
  | None => Raise NotFittedError
  | Some m0 =>
      let ref := loss m0 (snd ds) in
      let rob := loss m (snd ds) in
      do gap <- loss_gap rob ref;
      let l := contour (s_levels s) m ds in
      Ok ({| p_index := s_i s; p_title := if top then Some name else None; p_text := (percent sc, percent f, percent gap); p_levels := l |},
          {| s_models := ms; s_levels := Levels l; s_i := S (s_i s) |})
  end.
Fixpoint turns (first : nat) (top : bool) (ds : Train * Test) (pairs : list (string * nat)) (s : state) : Result (list panel * state) :=
  match pairs with
  | [] => Ok ([], s)
  | (name, clf) :: r =>
      do (p, s1) <- turn first top ds name clf s;
      do (ps, s2) <- turns first top ds r s1;
      Ok (p :: ps, s2)
  end.
(* the loop over the data sets, :28-127: two panels of data, then the classifiers *)
Fixpoint rows (first : nat) (top : bool) (pairs : list (string * nat)) (dss : list (Train * Test)) (s : state) : Result (list panel * state) :=
  match dss with
  | [] => Ok ([], s)
  | ds :: r =>
      do (ps, s1) <- turns first top ds pairs {| s_models := s_models s; s_levels := s_levels s; s_i := S (S (s_i s)) |};
      do (qs, s2) <- rows first false pairs r s1;
      Ok (ps ++ qs, s2)
  end.
(* plot_classifier_comparison, :24-131; models fitted before the call are kept in ms *)
Definition plot (ms : nat -> option Model) (names : list string) (classifiers : list nat) (datasets : list (Train * Test)) (levels : levels_arg) : Result (list panel) :=
  if Nat.eqb (List.length names) (List.length classifiers) then
    do (ps, _) <- rows (hd 0%nat classifiers) true (combine names classifiers) datasets {| s_models := ms; s_levels := levels; s_i := 1 |};
    Ok ps
  else Raise AssertionError.
End Compare.
Arguments plot {Train Test Model}.

(* ---------- spatial_perturbation_logistic_regression_epsilon_study.py ---------- *)
(* what a title of the figure says: the radius and the exponent of epsilon, :78-81 (the first title gives neither) *)
Record title := { t_rho : option R; t_eps : option Z }.
(* np.logspace(e0, e1, base=10, num=n) *)
Definition logspace (e0 e1 : R) (n : nat) : list R := map (fun i => Rpower 10 (e0 + INR i * ((e1 - e0) / INR (n - 1)))) (seq 0 n).
(* e0, e1 = -3, 1 and rho = 1e-0, :45-49 *)
Definition study_rho : R := 1.
Definition study_regs : list R := logspace (-3) 1 5.
(* the radius and the epsilon of each classifier, None for the default: :62-71 *)
Definition study_classifiers : list (R * option R) := (0, None) :: map (fun eps => (study_rho, Some eps)) study_regs.
(* names, with range(e0, e1+1) *)
Definition study_titles : list title :=
  {| t_rho := None; t_eps := None |} :: map (fun e => {| t_rho := Some 32; t_eps := Some e |}) [-3; -2; -1; 0; 1]%Z.

(* ---------- spatial_perturbation_moons.py ---------- *)
(* sdevs, :387, and the second of rhos, :405 *)
Definition moons_sdevs : list (R * R) := [(5 / 100, 1 / 10); (1 / 10, 5 / 10)].
Definition moons_rho : R := 2 / 10.
(* np.array([sdev_1, sdev_2]) * np.random.randn(n_train, 2), :393, and the test noise with the two swapped, :395; one point *)
Definition train_noise (sd g : R * R) : R * R := (fst sd * fst g, snd sd * snd g).
Definition test_noise (sd g : R * R) : R * R := (snd sd * fst g, fst sd * snd g).
(* sdevs of spatial_perturbation_logistic_regression.py, :27, and its radius 2*4**2, :45; make_blobs adds cluster_std times a normal
   vector to the centre of the class, here class by class: one point of a class of deviation s *)
Definition blobs_sdevs : list (R * R) := [(25 / 10, 5); (1, 5)].
Definition blobs_rho : R := 2 * 4 ^ 2.
Definition blob_noise (s : R) (g : R * R) : R * R := (s * fst g, s * snd g).
