(* Model of unit tests of the project as programs: tests/torch_tests/test_optim_cond.py, tests/torch_tests/test_hybrid_sgd.py,
   parts of tests/torch_tests/test_costs.py and of tests/dirac_test.py. A test is run on given inputs; Ok tt: it passes, Raise: it fails,
   with the exception that reaches pytest. What the tests draw at random is an argument. Numbers are exact reals. *)
From Coq Require Import Reals List Bool String ZArith.
From Verif Require Import PyBase RList XReal OptCond_Model HybridOpt_Model Costs_Model Samplers_Model Dtype_Model.
Import ListNotations.
Local Open Scope R_scope.

(* issubclass(e, ValueError): NoneGradError (solvers/utils.py:68) and sklearn's NotFittedError are subclasses *)
Definition is_value_error (e : exn) : bool :=
  match e with ValueError | NoneGradError | NotFittedError => true | _ => false end.
(* with pytest.raises(ValueError): the block has to raise one; another exception goes through; pytest's own failure is an AssertionError here *)
Definition raises_value_error {A} (r : Result A) : Result unit :=
  match r with Ok _ => Raise AssertionError | Raise e => if is_value_error e then Ok tt else Raise e end.
(* with pytest.raises(NotImplementedError) *)
Definition raises_not_implemented {A} (r : Result A) : Result unit :=
  match r with Ok _ => Raise AssertionError | Raise NotImplementedError => Ok tt | Raise e => Raise e end.

(* ---------- test_optim_cond.py ---------- *)
Section OptCondTest.
Variable vnorm : list xr -> xr.        (* the norm of the condition *)

(* make_checks, :119-128: the state of the condition and the outcome. The loop only calls the condition at i = 2, so not at all when
   the limit is None. *)
Definition make_checks (c : oc) (m1 m2 : obs) (tt : xr) (it : option Z) : oc * Result unit :=
  let (c1, r1) := oc_call vnorm c m1 1 in
  match r1 with
  | Raise e => (c1, Raise e)
  | Ok cvg1 =>
      match it with
      | None => (c1, assert_ (negb cvg1 || xle tt (Fin 0)))
      | Some _ =>
          let (c2, r2) := oc_call vnorm c1 m2 1000 in
          match r2 with
          | Raise e => (c2, Raise e)
          | Ok cvg2 =>
              match assert_ cvg2, assert_ (negb cvg1 || xle tt (Fin 0)) with
              | Raise e, _ | _, Raise e => (c2, Raise e)
              | Ok _, Ok _ => let (c3, r3) := oc_call vnorm c2 m1 2 in (c3, do _ <- r3; Ok Datatypes.tt)
              end
          end
      end
  end.

Definition is_wrong (s : string) : bool := String.eqb s "wrong".

(* test_opt_cond, :43-99. [m1], [m2]: the two models as built; [g1], [g2]: the same after the backward passes. Of the limits only 100
   and None are used by the test (:13), so "it == 100" is "it is not None". The message of the error is not modelled. *)
Definition test_opt_cond (p : order) (tt tl : xr) (it : option Z) (mon mod_ mt : string) (m1 m2 g1 g2 : obs) : Result unit :=
  if is_wrong mon || is_wrong mod_ || is_wrong mt then
    raises_value_error (
      do _ <- assert_ (match it with None => false | Some _ => true end);
      do c <- oc_init p tt tl it mon mod_ mt;
      snd (make_checks c m1 m2 tt it))
  else
    do c <- oc_init p tt tl it mon mod_ mt;
    if String.eqb mt "grad" then
      if xlt (Fin 0) tt && mem mon L_AND_T && negb (mem mon JUST_L) then
        let (c', r) := make_checks c m1 m2 tt it in
        do _ <- raises_value_error r;
        snd (make_checks c' g1 g2 tt it)
      else snd (make_checks c g1 g2 tt it)
    else snd (make_checks c m1 m2 tt it).
End OptCondTest.

(* ---------- test_hybrid_sgd.py ---------- *)
(* loss = ||a||^2 + ||b||^2, :13-14: the gradients left by backward are 2a and 2b *)
Definition hybrid_groups (a b : list R) (lr_a lr_b : R) : list group :=
  [{| g_keys := ["params"; "lr"; "mwu"]%string; g_lr := lr_a; g_params := [{| val := a; grad := Some (map (Rmult 2) a) |}] |};
   {| g_keys := ["params"; "lr"; "non_neg"]%string; g_lr := lr_b; g_params := [{| val := b; grad := Some (map (Rmult 2) b) |}] |}].
Fixpoint eq_list (u v : list R) : bool :=
  match u, v with [], [] => true | x :: u', y :: v' => Reqb x y && eq_list u' v' | _, _ => false end.
(* test_hybrid_sgd, :34-52: both parameters after the step against the two formulas; pytest.approx is equality here. The test has
   one-element parameters. The zeroed gradients at the end are torch's and left out. *)
Definition test_hybrid_sgd (a b : list R) (lr_a lr_b : R) : Result unit :=
  let exp_a := map (fun x => x * exp (- lr_a * (2 * x))) a in
  let exp_b := map (fun x => Rmax (x - lr_b * (2 * x)) 0) b in
  match hstep sgd (hybrid_groups a b lr_a lr_b) with
  | (_, Some e) => Raise e
  | ([{| g_params := [pa] |}; {| g_params := [pb] |}], None) =>
      do _ <- assert_ (eq_list exp_a (val pa)); assert_ (eq_list exp_b (val pb))
  | _ => Raise AssertionError
  end.

(* ---------- test_costs.py ---------- *)
(* test_sampler_data_p_power, :137-153 *)
Definition test_sampler_data_p_power (p power : xr) (xi : batch) (eps : R) : Result unit :=
  if xeq p PInf && xeq power (Fin 2) then raises_not_implemented (sampler_data (SNC p power) xi (Some eps))
  else do _ <- sampler_data (SNC p power) xi (Some eps); Ok tt.
(* TestNormCost.test_solve_max_series_exp_with_labels, :168-179, on one row *)
Definition test_nc_solve (p : nexp) (power : R) (xi y rhs rhs_y : vec) : Result unit :=
  do (z, zl) <- nc_solve_max p power xi (Some y) rhs (Some rhs_y);
  do _ <- assert_ (eq_list z (map2 (fun x r => x + 5 / 10 * r) xi rhs));
  assert_ (match zl with Some l => eq_list l y | None => false end).
Definition xlist_eq (u v : list xr) : bool :=
  Nat.eqb (List.length u) (List.length v) && forallb (fun p => xeq (fst p) (snd p)) (List.combine u v).
(* TestNormLabelCost.test_solve_max_series_exp_with_labels, :285-301, on one row *)
Definition test_nlc_solve (p : nexp) (power k : R) (xi y rhs rhs_y : vec) : Result unit :=
  if nexp_is_2 p && Reqb power 2 then
    do (z, zl) <- nlc_solve_max p power (KFin k) xi (Some y) rhs (Some rhs_y);
    do _ <- assert_ (eq_list z (map2 (fun x r => x + 5 / 10 * r) xi rhs));
    assert_ (match zl with Some l => xlist_eq l (map2 (fun v r => Fin (v + 5 / 10 * r / k)) y rhs_y) | None => false end)
  else raises_not_implemented (nlc_solve_max p power (KFin k) xi (Some y) rhs (Some rhs_y)).

(* ---------- dirac_test.py ---------- *)
(* TestDiracLogProb, :151-187: at the location, and after adding the same number to every entry *)
Definition test_log_prob_at_loc (loc : tensor) (n : nat) : Result unit :=
  assert_ (xeq (dirac_log_prob (Dirac loc n) [] (t_data loc)) (Fin 0)).
Definition test_log_prob_away (loc : tensor) (n : nat) (d : R) : Result unit :=
  assert_ (match dirac_log_prob (Dirac loc n) [] (map (fun x => xadd x (Fin d)) (t_data loc)) with MInf => true | _ => false end).
(* test_log_prob_small_difference, :181-187, in float32: the location and the number added are dyadic, the sum is rounded *)
Definition dy_add (x y : dyadic) : dyadic :=
  let e := Z.min (de x) (de y) in Dy (dm x * 2 ^ (de x - e) + dm y * 2 ^ (de y - e)) e.
Definition add32 (x d : dyadic) : dyadic := round_to float32 (dy_add x d).
Definition test_log_prob_small (loc : list dyadic) (d : dyadic) : Result unit :=
  let t := {| t_shape := [List.length loc]; t_data := map (fun x => Fin (d2r x)) loc |} in
  assert_ (match dirac_log_prob (Dirac t 0) [] (map (fun x => Fin (d2r (add32 x d))) loc) with MInf => true | _ => false end).
