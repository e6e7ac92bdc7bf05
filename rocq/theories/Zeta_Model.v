(* Model of the way a robust loss gets its sampler and its samples: draws of the samplers with an explicit covariance, default
   samplers of the losses, Loss.__init__, the sampler attributes of Loss and of the dual loss, init_sampler and generate_zetas.
   Same conventions as Samplers_Model: a batch is a list of rows, torch's generator is an abstract state. *)
From Coq Require Import Reals List Bool ZArith.
From Verif Require Import PyBase RList XReal Samplers_Model.
Import ListNotations.
Local Open Scope R_scope.

(* ---------- draws of the samplers with an explicit covariance ---------- *)
Definition mat_vec (L : mat) (e : vec) : vec := map (fun row => dot row e) L.

Section Draws.
  Variable G : Type.
  Variable manual_seed : Z -> G.
  (* standard Gaussian noise of shape (n, m, d), and n * m * d' Bernoulli(p) outcomes *)
  Variable draw : fam -> nat -> list nat -> G -> list batch * G.
  Variable coins : R -> nat -> list nat -> G -> list (list (list bool)) * G.

  (* MultivariateNormal.rsample((n,)): loc + scale_tril @ noise *)
  Definition mvn_rsample (loc : batch) (L : mat) (n : nat) (g : G) : list batch * G :=
    let (z, g') := draw FNormal n (map (@List.length R) loc) g in
    (map (map2 (fun l e => vadd l (mat_vec L e)) loc) z, g').

  (* NoLabelsSampler.sample, base_samplers.py:133-134, for the newsvendor and portfolio samplers *)
  Definition ns_sample (s : nsampler) (n : nat) (g : G) : list batch * G := mvn_rsample (n_loc s) (n_tril s) n g.

  (* sample_labels: base_samplers.py:190-191 (Gaussian), classif_sampler.py:130-134 (n views of the labels), :208-215 *)
  Definition lab_sample (l : lablaw) (n : nat) (g : G) : list batch * G :=
    match l with
    | LGauss y LL => mvn_rsample y LL n g
    | LDirac y => (repeat y n, g)
    | LFlip p y => let (b, g') := coins p n (map (@List.length R) y) g in (map (map2 (map2 flip_label) y) b, g')
    end.
  (* LabeledSampler.sample, base_samplers.py:182-185 *)
  Definition cl_sample (s : clsampler) (n : nat) (g : G) : list batch * list batch * G :=
    let (z, g1) := ns_sample (cl_data s) n g in
    let (zl, g2) := lab_sample (cl_lab s) n g1 in (z, zl, g2).
End Draws.

(* ---------- default samplers ---------- *)
(* the classes of the library that implement default_sampler; LAbstract is a subclass that calls the base method *)
Inductive losskind := KLogistic | KQuadratic | KNewsVendor | KWrapped | KAbstract.
Inductive sampler := SNormal (s : nsampler) | SClass (s : clsampler) | SCost (s : csampler).

Definition sigma_kw (e : R) : covkw := {| k_sigma := Some e; k_tril := None; k_prec := None; k_cov := None |}.

Section Defaults.
  Variable chol prec_chol : mat -> option mat.
  (* default_sampler: logistic.py:109-123 and quadratic.py:43-52 (a None label has no size), newsvendor.py:84-92,
     wrapper.py:89-97 (WrappingError, a UserExn here), base_loss.py:133-146 *)
  Definition default_sampler (k : losskind) (xi : batch) (y : option batch) (eps : R) (seed : option Z) : Result (option sampler) :=
    match k with
    | KLogistic | KQuadratic =>
        match y with
        | None => Raise AttributeError
        | Some y => do s <- cl_init chol prec_chol (ANormalNormal (sigma_kw eps)) xi y (sigma_kw eps) seed; Ok (Some (SClass s))
        end
    | KNewsVendor => do s <- ns_init chol prec_chol xi (sigma_kw eps) seed; Ok (Some (SNormal s))
    | KWrapped => Raise UserExn
    | KAbstract => Ok None
    end.

  (* Loss.__init__, base_loss.py:57-75: the attributes _sampler and has_labels *)
  Record lossobj := { lo_sampler : option (option sampler);   (* None: deleted *) lo_has_labels : bool }.
  Definition loss_init (k : losskind) (s : option sampler) (has_labels : bool) (xi y : option batch) (sigma : option R) : Result lossobj :=
    do s' <- match s, xi with
             | None, Some xi => default_sampler k xi y (match sigma with None => 1 / 10 | Some e => e end) None
             | _, _ => Ok s
             end;
    Ok {| lo_sampler := Some s'; lo_has_labels := has_labels |}.
  (* the constructors of the library's losses pass neither xi nor sigma: logistic.py:53, quadratic.py:26, newsvendor.py:49,
     wrapper.py:67 *)
  Definition concrete_init (k : losskind) (s : option sampler) (has_labels : bool) : Result lossobj := loss_init k s has_labels None None None.
End Defaults.

(* ---------- the sampler attributes ---------- *)
(* the dual loss: its primal loss, its cost, its own _sampler (_misc_dual_interfaces.py:118), n_samples *)
Record dual := { du_loss : lossobj; du_cost : scost; du_own : option sampler; du_n : nat }.

(* Loss.sampler, base_loss.py:118-123; _SampledDualLoss.sampler, _misc_dual_interfaces.py:401-403 *)
Definition get_sampler (d : dual) : Result sampler :=
  match lo_sampler (du_loss d) with
  | None => Raise AttributeError
  | Some None => Raise ValueError
  | Some (Some s) => Ok s
  end.
(* the setter, base_loss.py:125-127 and _misc_dual_interfaces.py:409-411 *)
Definition set_sampler (d : dual) (s : option sampler) : dual :=
  {| du_loss := {| lo_sampler := Some s; lo_has_labels := lo_has_labels (du_loss d) |}; du_cost := du_cost d; du_own := du_own d; du_n := du_n d |}.
(* the deleter, base_loss.py:129-131 and _misc_dual_interfaces.py:405-407: deleting twice is an AttributeError *)
Definition del_sampler (d : dual) : Result dual :=
  match lo_sampler (du_loss d) with
  | None => Raise AttributeError
  | Some _ => Ok {| du_loss := {| lo_sampler := None; lo_has_labels := lo_has_labels (du_loss d) |}; du_cost := du_cost d; du_own := du_own d; du_n := du_n d |}
  end.

(* _DualLossBase.init_sampler, _misc_dual_interfaces.py:173-229 *)
Definition init_sampler (d : dual) (xi : batch) (y : option batch) (sigma : R) (seed : option Z) : Result (sampler * dual) :=
  do s <- (if lo_has_labels (du_loss d)
           then match y with None => Raise AssertionError | Some y => labeled_init (du_cost d) xi y (Some sigma) seed end
           else match y with Some _ => Raise AssertionError | None => nolabels_init (du_cost d) xi (Some sigma) seed end);
  Ok (SCost s,
      {| du_loss := {| lo_sampler := Some (Some (SCost s)); lo_has_labels := lo_has_labels (du_loss d) |};
         du_cost := du_cost d; du_own := Some (SCost s); du_n := du_n d |}).

Section Zetas.
  Variable G : Type.
  Variable draw : fam -> nat -> list nat -> G -> list batch * G.
  Variable coins : R -> nat -> list nat -> G -> list (list (list bool)) * G.
  Definition finite (t : list batch) : list (list (list xr)) := map (map (map Fin)) t.
  (* sampler.sample(n) for any of the classes *)
  Definition any_sample (s : sampler) (n : nat) (g : G) : list (list (list xr)) * option (list (list (list xr))) * G :=
    match s with
    | SNormal s => let (z, g') := ns_sample G draw s n g in (finite z, None, g')
    | SClass s => let '(z, zl, g') := cl_sample G draw coins s n g in (finite z, Some (finite zl), g')
    | SCost s => sample G draw s n g
    end.
  (* generate_zetas, _misc_dual_interfaces.py:330-357 *)
  Definition generate_zetas (d : dual) (n : option Z) (g : G) : Result (list (list (list xr)) * option (list (list (list xr))) * G) :=
    do s <- get_sampler d;
    let count := match n with None => du_n d | Some n => if (n <=? 0)%Z then du_n d else Z.to_nat n end in
    Ok (any_sample s count g).
  (* Loss.sample_pi0, base_loss.py:113-116 *)
  Definition sample_pi0 (l : lossobj) (n : nat) (g : G) : Result (list (list (list xr)) * option (list (list (list xr))) * G) :=
    do s <- get_sampler {| du_loss := l; du_cost := SNC NaN NaN; du_own := None; du_n := 0 |}; Ok (any_sample s n g).
  (* BaseSampler.__next__, base_samplers.py:55-59: __iter__ returns the sampler itself and StopIteration is never raised *)
  Fixpoint iterate (s : sampler) (k : nat) (g : G) : list (list (list (list xr)) * option (list (list (list xr)))) * G :=
    match k with
    | O => ([], g)
    | S k => let '(z, zl, g1) := any_sample s 1 g in let (r, g2) := iterate s k g1 in ((z, zl) :: r, g2)
    end.
End Zetas.

(* programs acting on the sampler of a dual loss; failing calls leave it as it was *)
Inductive sop := OSet (s : option sampler) | ODel | OInit (xi : batch) (y : option batch) (sigma : R) (seed : option Z).
Definition sact (d : dual) (o : sop) : dual :=
  match o with
  | OSet s => set_sampler d s
  | ODel => match del_sampler d with Ok d' => d' | Raise _ => d end
  | OInit xi y sigma seed => match init_sampler d xi y sigma seed with Ok (_, d') => d' | Raise _ => d end
  end.
Definition sacts (d : dual) (l : list sop) : dual := fold_left sact l d.
