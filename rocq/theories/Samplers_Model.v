(* Model of the samplers: skwdro/base/samplers/torch/{base_samplers,cost_samplers,classif_sampler,newsvendor_sampler,
   portfolio_sampler}.py, the sampling methods of the costs, and the resampling part of the post-sampled loss.
   A batch (m, d) is a list of m vectors. Numbers are exact; the law of the noise is not modelled: torch's generator is
   an abstract state [G] with a seeding function and a drawing function of standard noise. *)
From Coq Require Import Reals List Bool ZArith.
From Verif Require Import PyBase RList XReal.
Import ListNotations.
Local Open Scope R_scope.

Definition batch := list vec.

(* torch.distributions.Normal / Laplace *)
Inductive fam := FNormal | FLaplace.

(* The distributions built by the costs: a location-scale law with independent coordinates, or skwdro's Dirac.
   The scale is an extended number, since epsilon / kappa may be infinite. *)
Inductive dist :=
| LocScale (f : fam) (loc : batch) (scale : xr)
| DiracAt (loc : batch).

(* dst.Normal(loc, scale) / dst.Laplace(loc, scale): torch validates scale > 0 by default (ValueError) *)
Definition loc_scale (f : fam) (loc : batch) (scale : xr) : Result dist :=
  if xlt (Fin 0) scale then Ok (LocScale f loc scale) else Raise ValueError.

(* The costs seen from the samplers: attributes p, power, kappa (any floats). *)
Inductive scost := SNC (p power : xr) | SNLC (p power kappa : xr).
Definition sc_p (c : scost) := match c with SNC p _ | SNLC p _ _ => p end.
Definition sc_power (c : scost) := match c with SNC _ w | SNLC _ w _ => w end.

(* The tests on power and p common to normcost.py:92-120 and normlabelcost.py:158-190; None = NotImplementedError. *)
Definition family (p power : xr) : option fam :=
  if xeq power (Fin 1) then
    if xeq p (Fin 1) then Some FLaplace
    else if xeq p (Fin 2) then Some FNormal
    else if xeq p PInf then Some FNormal
    else None
  else if xeq power (Fin 2) then
    if xeq p (Fin 2) then Some FNormal else None
  else None.

(* normcost.py:88-91, normlabelcost.py:152-155: None becomes 1e-3 *)
Definition eps_default (eps : option R) : R := match eps with None => 1 / 1000 | Some e => e end.

(* NormCost._sampler_data, normcost.py:83-120, inherited by NormLabelCost *)
Definition sampler_data (c : scost) (xi : batch) (eps : option R) : Result dist :=
  match family (sc_p c) (sc_power c) with
  | Some f => loc_scale f xi (Fin (eps_default eps))
  | None => Raise NotImplementedError
  end.

(* NormCost._sampler_labels, normcost.py:138-147, and NormLabelCost._sampler_labels, normlabelcost.py:146-190.
   The labels are given (the samplers below never pass None). *)
Definition sampler_labels (c : scost) (y : batch) (eps : option R) : Result (option dist) :=
  match c with
  | SNC _ _ => Ok (Some (DiracAt y))
  | SNLC p power k =>
      if xeq k PInf then Ok (Some (DiracAt y))
      else match family p power with
           | None => Raise NotImplementedError
           | Some f =>
               do d <- loc_scale f y (if xeq power (Fin 1) then xdiv (Fin (eps_default eps)) k else Fin (eps_default eps));
               Ok (Some d)
           end
  end.

(* NoLabelsCostSampler and LabeledCostSampler: attributes generating_cost, sigma, seed, data_s, labels_s
   (None for the unlabelled class). *)
Record csampler := mkCS {
  cs_cost : scost; cs_sigma : option R; cs_seed : option Z; cs_data : dist; cs_labels : option dist }.

(* NoLabelsCostSampler.__init__, cost_samplers.py:9-38 (without the seeding, see [reseed]) *)
Definition nolabels_init (c : scost) (xi : batch) (sigma : option R) (seed : option Z) : Result csampler :=
  do d <- sampler_data c xi sigma; Ok (mkCS c sigma seed d None).

(* LabeledCostSampler.__init__, cost_samplers.py:50-86 *)
Definition labeled_init (c : scost) (xi y : batch) (sigma : option R) (seed : option Z) : Result csampler :=
  do d <- sampler_data c xi sigma;
  do l <- sampler_labels c y sigma;
  match l with
  | None => Raise ValueError
  | Some l => Ok (mkCS c sigma seed d (Some l))
  end.

(* reset_mean, cost_samplers.py:40-46 and :88-98: the class is told by the presence of a label law *)
Definition cs_reset (s : csampler) (xi : batch) (y : option batch) : Result csampler :=
  match cs_labels s with
  | None => nolabels_init (cs_cost s) xi (cs_sigma s) (cs_seed s)
  | Some _ =>
      match y with
      | None => Raise AssertionError
      | Some y => labeled_init (cs_cost s) xi y (cs_sigma s) (cs_seed s)
      end
  end.

(* A program that keeps calling reset_mean, catching the exceptions (a failed call leaves the object as it was: every
   exception is raised before the first assignment). *)
Definition cs_reset_caught (s : csampler) (a : batch * option batch) : csampler :=
  match cs_reset s (fst a) (snd a) with Ok s' => s' | Raise _ => s end.
Definition cs_resets (s : csampler) (l : list (batch * option batch)) : csampler := fold_left cs_reset_caught l s.

Section RNG.
  (* torch's global generator: pt.manual_seed and the standard noise of a family for a (n, m, d) tensor. *)
  Variable G : Type.
  Variable manual_seed : Z -> G.
  Variable draw : fam -> nat -> list nat -> G -> list batch * G.

  (* BaseSampler.__init__, base_samplers.py:29-31: run by every __init__, hence also by every reset_mean *)
  Definition reseed (seed : option Z) (g : G) : G := match seed with None => g | Some z => manual_seed z end.

  (* Distribution.rsample((n,)): loc + scale * noise, n copies of the location for a Dirac (no draw) *)
  Definition rsample (d : dist) (n : nat) (g : G) : list (list (list xr)) * G :=
    match d with
    | LocScale f loc scale =>
        let (z, g') := draw f n (map (@List.length R) loc) g in
        (map (map2 (map2 (fun l e => xadd (Fin l) (xmul scale (Fin e)))) loc) z, g')
    | DiracAt loc => (repeat (map (map Fin) loc) n, g)
    end.

  (* NoLabelsSampler.sample and LabeledSampler.sample, base_samplers.py:133-134 and :182-191: data first, then labels *)
  Definition sample (s : csampler) (n : nat) (g : G) : list (list (list xr)) * option (list (list (list xr))) * G :=
    let (z, g1) := rsample (cs_data s) n g in
    match cs_labels s with
    | None => (z, None, g1)
    | Some l => let (zl, g2) := rsample l n g1 in (z, Some zl, g2)
    end.

  (* The sampling part of DualPostSampledLoss.forward, oracle_torch.py:284-310, for a loss that has a sampler: the
     sampler and generator after the call, and the zetas handed to compute_dual (None on the rho = 0 path). *)
  Definition post_forward (rho : R) (n : nat) (xi : batch) (y : option batch) (reset_sampler : bool) (s : csampler) (g : G)
    : Result (option (list (list (list xr)) * option (list (list (list xr)))) * csampler * G) :=
    do (s1, g1) <- (if reset_sampler then do s1 <- cs_reset s xi y; Ok (s1, reseed (cs_seed s1) g) else Ok (s, g));
    if Rltb rho 0 then Raise ValueError
    else if Reqb rho 0 then Ok (None, s1, g1)
    else let '(z, zl, g2) := sample s1 n g1 in Ok (Some (z, zl), s1, g2).

  (* A training loop: one pass per batch; between passes the caller (other layers, data loader...) may use the
     generator in any way, [mix]. Returns the zetas of each pass. *)
  Fixpoint passes (rho : R) (n : nat) (reset_sampler : bool) (bs : list (batch * option batch)) (mix : nat -> G -> G)
           (s : csampler) (g : G) : Result (list (option (list (list (list xr)) * option (list (list (list xr)))))) :=
    match bs with
    | [] => Ok []
    | (xi, y) :: r =>
        do (z, s', g') <- post_forward rho n xi y reset_sampler s g;
        do zs <- passes rho n reset_sampler r mix s' (mix (List.length r) g');
        Ok (z :: zs)
    end.
End RNG.

(* ---------- samplers with an explicit covariance ---------- *)

Definition mat := list vec.

(* pt.eye(d) * sigma, base_samplers.py:243 *)
Definition eye_scaled (d : nat) (sigma : R) : mat :=
  map (fun i => map (fun j => if Nat.eqb i j then sigma else 0) (seq 0 d)) (seq 0 d).

(* the keyword passed to MultivariateNormal *)
Inductive covarg := ScaleTril (L : mat) | CovMatrix (C : mat) | PrecMatrix (P : mat).

(* IsOptionalCovarianceSampler.init_covar, base_samplers.py:225-257 *)
Definition init_covar (d : nat) (sigma : option R) (tril prec cov : option mat) : Result covarg :=
  match sigma, tril, cov, prec with
  | Some s, _, _, _ => Ok (ScaleTril (eye_scaled d s))
  | None, Some L, _, _ => Ok (ScaleTril L)
  | None, None, Some C, _ => Ok (CovMatrix C)
  | None, None, None, Some P => Ok (PrecMatrix P)
  | None, None, None, None => Raise ValueError
  end.

(* torch's constraint lower_cholesky: lower triangular with a positive diagonal *)
Fixpoint check_rows (i : nat) (L : mat) : bool :=
  match L with
  | [] => true
  | r :: L' => Rltb 0 (nth i r 0) && forallb (fun x => Reqb x 0) (skipn (S i) r) && check_rows (S i) L'
  end.
Definition lower_cholesky (L : mat) : bool := check_rows 0 L.

Section Covariance.
  (* torch.linalg.cholesky and _precision_to_scale_tril, with the validation of the constraint positive_definite:
     None is the ValueError of an invalid matrix. *)
  Variable chol prec_chol : mat -> option mat.

  (* MultivariateNormal(loc, ...): the attribute _unbroadcasted_scale_tril *)
  Definition mvn_tril (c : covarg) : Result mat :=
    match c with
    | ScaleTril L => if lower_cholesky L then Ok L else Raise ValueError
    | CovMatrix C => match chol C with Some L => Ok L | None => Raise ValueError end
    | PrecMatrix P => match prec_chol P with Some L => Ok L | None => Raise ValueError end
    end.

  (* the four covariance keywords of a constructor *)
  Record covkw := { k_sigma : option R; k_tril : option mat; k_prec : option mat; k_cov : option mat }.
  Definition only_tril (L : mat) : covkw := {| k_sigma := None; k_tril := Some L; k_prec := None; k_cov := None |}.

  (* xi.size(-1) *)
  Definition last_dim (xi : batch) : nat := match xi with [] => 0 | v :: _ => List.length v end.

  Definition kw_tril (xi : batch) (k : covkw) : Result mat :=
    do c <- init_covar (last_dim xi) (k_sigma k) (k_tril k) (k_prec k) (k_cov k); mvn_tril c.

  (* NewsVendorNormalSampler, PortfolioNormalSampler, PortfolioLaplaceSampler (the last is Gaussian too):
     newsvendor_sampler.py:8-60, portfolio_sampler.py:8-60 and :63-116, with the same code. *)
  Record nsampler := { n_loc : batch; n_tril : mat; n_seed : option Z }.
  Definition ns_init (xi : batch) (k : covkw) (seed : option Z) : Result nsampler :=
    do L <- kw_tril xi k; Ok {| n_loc := xi; n_tril := L; n_seed := seed |}.
  Definition ns_reset (s : nsampler) (xi : batch) (y : option batch) : Result nsampler :=
    ns_init xi (only_tril (n_tril s)) (n_seed s).

  (* The label laws of the classification samplers: Gaussian, Dirac, or a label times a random sign. *)
  Inductive lablaw := LGauss (loc : batch) (tril : mat) | LDirac (loc : batch) | LFlip (p : R) (loc : batch).
  Record clsampler := { cl_data : nsampler; cl_lab : lablaw }.

  (* which class, with its own constructor arguments *)
  Inductive clargs := ANormalNormal (lk : covkw) | ANormalId | ANormalBernouilli (p : R).

  (* ClassificationNormalNormalSampler.__init__ classif_sampler.py:12-64, ClassificationNormalIdSampler.__init__ :86-128,
     ClassificationNormalBernouilliSampler.__init__ :155-206. Batches are two-dimensional, so the assertions of :48-49 hold. *)
  Definition cl_init (a : clargs) (xi y : batch) (k : covkw) (seed : option Z) : Result clsampler :=
    match a with
    | ANormalNormal lk =>
        do c <- init_covar (last_dim xi) (k_sigma k) (k_tril k) (k_prec k) (k_cov k);
        do lc <- init_covar (last_dim y) (k_sigma lk) (k_tril lk) (k_prec lk) (k_cov lk);
        do L <- mvn_tril c; do LL <- mvn_tril lc;
        Ok {| cl_data := {| n_loc := xi; n_tril := L; n_seed := seed |}; cl_lab := LGauss y LL |}
    | ANormalId =>
        do d <- ns_init xi k seed; Ok {| cl_data := d; cl_lab := LDirac y |}
    | ANormalBernouilli p =>
        do _ <- assert_ (Rleb 0 p && Rleb p 1);
        do d <- ns_init xi k seed; Ok {| cl_data := d; cl_lab := LFlip p y |}
    end.

  (* the three reset_mean methods: classif_sampler.py:66-79, :136-148, :217-230 *)
  Definition cl_reset (s : clsampler) (xi : batch) (y : option batch) : Result clsampler :=
    match y with
    | None => Raise AssertionError
    | Some y =>
        let kw := only_tril (n_tril (cl_data s)) in
        let seed := n_seed (cl_data s) in
        match cl_lab s with
        | LGauss _ LL => cl_init (ANormalNormal (only_tril LL)) xi y kw seed
        | LDirac _ => cl_init ANormalId xi y kw seed
        | LFlip p _ => cl_init (ANormalBernouilli p) xi y kw seed
        end
    end.
End Covariance.

(* ClassificationNormalBernouilliSampler.sample_labels, classif_sampler.py:196-204 and :208-215: the affine transform
   loc + scale * b with loc = -y, scale = 2y of a Bernoulli draw b. *)
Definition flip_label (y : R) (b : bool) : R := - y + 2 * y * (if b then 1 else 0).

(* dst.Bernoulli(p): probability of each outcome *)
Definition bernoulli_law (p : R) : list (R * bool) := [(p, true); (1 - p, false)].
Definition flip_law (p y : R) : list (R * R) := map (fun wb => (fst wb, flip_label y (snd wb))) (bernoulli_law p).

(* ---------- skwdro/distributions/dirac_distribution.py ---------- *)

(* A tensor: shape and entries in row-major order. *)
Record tensor := { t_shape : list nat; t_data : list xr }.
Fixpoint prod (l : list nat) : nat := match l with [] => 1%nat | n :: r => (n * prod r)%nat end.
Definition well_shaped (t : tensor) : Prop := List.length (t_data t) = prod (t_shape t).

Record dirac := { d_loc : tensor; d_batch : list nat; d_event : list nat }.

(* Dirac.__init__, dirac_distribution.py:21-30 *)
Definition Dirac (loc : tensor) (n_batch_dims : nat) : dirac :=
  {| d_loc := loc; d_batch := firstn n_batch_dims (t_shape loc); d_event := skipn n_batch_dims (t_shape loc) |}.

(* loc.expand(sample_shape + shape): the entries are repeated once per sample index (the case used by rsample; expanding
   a dimension of size one to another size does not occur there) *)
Definition expand_front (ss : list nat) (shape : list nat) (t : tensor) : tensor :=
  {| t_shape := ss ++ shape; t_data := List.concat (repeat (t_data t) (prod ss)) |}.

(* Dirac.rsample, dirac_distribution.py:83-85; _extended_shape is sample_shape + batch_shape + event_shape *)
Definition dirac_rsample (d : dirac) (ss : list nat) : tensor :=
  expand_front ss (d_batch d ++ d_event d) (d_loc d).

Definition xabs_ (x : xr) : xr := match x with Fin r => Fin (Rabs r) | PInf | MInf => PInf | NaN => NaN end.

(* Dirac.log_prob, dirac_distribution.py:87-91, for a value of shape ss + shape of loc: one scalar *)
Definition dirac_log_prob (d : dirac) (ss : list nat) (value : list xr) : xr :=
  if xeq (fold_right xadd (Fin 0) (map xabs_ (map2 xsub value (t_data (dirac_rsample d ss))))) (Fin 0)
  then Fin 0 else MInf.

(* BaseSampler._format_logprobs and LabeledSampler.log_prob, base_samplers.py:105-117 and :197-206, for a Dirac label
   law: the scalar is broadcast over the (n, m, 1) log-densities of the data *)
Definition labeled_log_prob (lp_data : list xr) (d : dirac) (ss : list nat) (labels : list xr) : list xr :=
  map (fun x => xadd x (dirac_log_prob d ss labels)) lp_data.

(* ---------- labels that are missing ---------- *)
(* NormCost._sampler_labels with its None branch, normcost.py:138-147 *)
Definition nc_sampler_labels (y : option batch) : option dist := option_map DiracAt y.
(* LabeledCostSampler.__init__ with a plain norm cost when the labels may be None, cost_samplers.py:50-86 (its type annotation forbids
   None, the code does not) *)
Definition labeled_init_nc (p power : xr) (xi : batch) (y : option batch) (sigma : option R) (seed : option Z) : Result csampler :=
  do d <- sampler_data (SNC p power) xi sigma;
  match nc_sampler_labels y with
  | None => Raise ValueError
  | Some l => Ok (mkCS (SNC p power) sigma seed d (Some l))
  end.
