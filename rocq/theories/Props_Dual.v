(* Properties C14-C21 and C61: the robust (dual) loss.
   The loss, the cost, the displacement and the log-densities are arbitrary functions on an arbitrary type of data points,
   except where stated. [cfg red rho lam eps p] is the robust loss with reduction red, no importance sampling, ERM mode off. *)
From Coq Require Import Reals List String Lra Lia Permutation.
From Verif Require Import PyBase RList XReal LogMeanExp Dual_Model Dual_Spec Dual_Proofs DualMinimax_Proofs
  ImpSamp_Model ImpSamp_Spec ImpSamp_Proofs.
Import ListNotations.
Local Open Scope R_scope.

(* a batch of two points with two samples each, used in the examples *)
Definition sample_rows : list (row R) := [mkrow 0 [1; 2]; mkrow 3 [3; 5]].
Example sample_rows_ok : batch_ok 2 sample_rows.
Proof. split; [lia|]. split; [discriminate|]. repeat constructor. Qed.

(* C14. Radius 0: the mean primal loss over the data, whatever lambda, epsilon, power, mode, importance sampling and samples. *)
Theorem C14_zero_radius :
  forall P loss cost displace lp lpr d n (rows : list (row P)),
    d_rho d = Fin 0 -> d_reduction d = "mean"%string -> rows <> [] ->
    compute_dual P loss cost displace lp lpr d n rows = Ok (Scalar (Fin (rmean (map (fun r => loss (r_xi r)) rows)))) /\
    forward_post P loss cost displace lp lpr true d n rows = Ok (Scalar (Fin (rmean (map (fun r => loss (r_xi r)) rows)))).
Proof.
  exact (fun P loss cost displace lp lpr d n rows H1 H2 H3 =>
    conj (zero_radius_compute P loss cost displace lp lpr d n rows H1 H2 H3)
         (zero_radius_post P loss cost displace lp lpr d n rows H1 H2 H3)).
Qed.
Print Assumptions C14_zero_radius.

Theorem C14_zero_radius_presampled :
  forall P loss cost displace lp lpr d stored (data : list (P * P)) (z : samples P),
    d_rho d = Fin 0 -> d_reduction d = "mean"%string -> data <> [] -> List.length (snd z) = List.length data ->
    forward_pre P loss cost displace lp lpr d stored data (Some z)
    = (Some z, Ok (Scalar (Fin (rmean (map (fun mx => loss (snd mx)) data))))).
Proof. exact zero_radius_pre. Qed.
Print Assumptions C14_zero_radius_presampled.

Theorem C14_erm_mode :
  forall P loss cost displace lp lpr d n (rows : list (row P)) rho,
    d_erm d = true -> d_rho d = Fin rho -> d_reduction d = "mean"%string -> rows <> [] ->
    compute_dual P loss cost displace lp lpr d n rows
    = Ok (Scalar (Fin (rho * d_lam d + rmean (map (fun r => loss (r_xi r)) rows)))).
Proof. exact erm_mode_value. Qed.
Print Assumptions C14_erm_mode.

(* Refuted on one path: the pre-sampled loss called again without samples at radius 0 always fails. *)
Theorem C14_presampled_reuse_fails :
  forall P loss cost displace lp lpr d (z : samples P) data,
    d_rho d = Fin 0 -> forward_pre P loss cost displace lp lpr d (Some z) data None = (Some z, Raise AssertionError).
Proof. exact zero_radius_pre_reuse. Qed.
Print Assumptions C14_presampled_reuse_fails.

Theorem C14_presampled_reuse_refuted :
  exists (loss : R -> R) (z : samples R) data,
    (exists v, forward_pre R loss (fun _ _ => 0) no_displace (fun _ _ => 0) (fun _ _ _ => 0) (cfg "mean" 0 1 1 2) None data (Some z)
               = (Some z, Ok (Scalar (Fin v)))) /\
    forward_pre R loss (fun _ _ => 0) no_displace (fun _ _ => 0) (fun _ _ _ => 0) (cfg "mean" 0 1 1 2) (Some z) data None
    = (Some z, Raise AssertionError).
Proof. exact presampled_reuse_witness. Qed.
Print Assumptions C14_presampled_reuse_refuted.

Example C14_case : d_rho (cfg "mean" 0 5 1 2) = Fin 0 /\ d_reduction (cfg "mean" 0 5 1 2) = "mean"%string /\ sample_rows <> [].
Proof. repeat split. discriminate. Qed.

(* C15. Negative (or -inf) radius raises ValueError, NaN gives NaN, a positive finite radius a finite value, an infinite one
   an infinite value (NaN if lambda = 0). *)
Theorem C15_negative :
  forall P loss cost displace lp lpr d n (rows : list (row P)) stored data zeta,
    d_erm d = false -> (d_rho d = MInf \/ exists r, d_rho d = Fin r /\ r < 0) ->
    compute_dual P loss cost displace lp lpr d n rows = Raise ValueError /\
    (forall has_sampler, forward_post P loss cost displace lp lpr has_sampler d n rows = Raise ValueError) /\
    snd (forward_pre P loss cost displace lp lpr d stored data zeta) = Raise ValueError.
Proof.
  exact (fun P loss cost displace lp lpr d n rows stored data zeta H1 H2 =>
    conj (negative_radius P loss cost displace lp lpr d n rows H1 H2)
   (conj (fun hs => negative_radius_post P loss cost displace lp lpr d n rows hs H2)
         (negative_radius_pre P loss cost displace lp lpr d stored data zeta H1 H2))).
Qed.
Print Assumptions C15_negative.

Theorem C15_nan :
  forall P loss cost displace lp lpr d n (rows : list (row P)),
    d_rho d = NaN -> d_erm d = false -> compute_dual P loss cost displace lp lpr d n rows = Ok (Scalar NaN).
Proof. exact (fun P loss cost displace lp lpr d n rows H1 H2 => nan_radius P loss cost displace lp lpr d n rows H2 H1). Qed.
Print Assumptions C15_nan.

Theorem C15_positive_finite :
  forall P loss cost displace lp lpr n (rows : list (row P)) rho lam eps p,
    batch_ok n rows -> 0 < rho -> 0 < eps ->
    compute_dual P loss cost displace lp lpr (cfg "mean" rho lam eps p) n rows =
    Ok (Scalar (Fin (lam * Rpower rho p +
        rmean (map (fun r => softmaximum eps (map (fun z => loss z - lam * cost (r_xi r) z) (r_zeta r))) rows)))).
Proof. exact cd_mean. Qed.
Print Assumptions C15_positive_finite.

Theorem C15_infinite :
  forall P loss cost displace lp lpr n (rows : list (row P)) lam eps p,
    batch_ok n rows -> 0 < eps -> 0 < p ->
    compute_dual P loss cost displace lp lpr
      {| d_rho := PInf; d_lam := lam; d_eps := eps; d_power := p; d_reduction := "mean"; d_imp := false; d_erm := false |} n rows
    = Ok (Scalar (if Reqb lam 0 then NaN else if Rltb lam 0 then MInf else PInf)).
Proof. exact inf_radius. Qed.
Print Assumptions C15_infinite.

Example C15_case : batch_ok 2 sample_rows /\ 0 < 1 /\ (exists r, d_rho (cfg "mean" (-1) 5 1 2) = Fin r /\ r < 0).
Proof. split; [exact sample_rows_ok|]. split; [lra|]. exists (-1). split; [reflexivity|lra]. Qed.

(* C16. Between the average and the worst case of the penalised loss; B is any upper bound of the penalised losses of the
   samples of each point, so in particular their maximum. *)
Theorem C16_sandwich :
  forall P loss cost displace lp lpr n (rows : list (row P)) rho lam eps p,
    batch_ok n rows -> 0 < rho -> 0 < eps ->
    exists v, compute_dual P loss cost displace lp lpr (cfg "mean" rho lam eps p) n rows = Ok (Scalar (Fin v)) /\
      lam * Rpower rho p + rmean (map (fun r => rmean (map (fun z => loss z - lam * cost (r_xi r) z) (r_zeta r))) rows) <= v /\
      (forall B : row P -> R,
          (forall r z, In r rows -> In z (r_zeta r) -> loss z - lam * cost (r_xi r) z <= B r) ->
          v <= lam * Rpower rho p + rmean (map B rows)).
Proof. exact objective_bounds. Qed.
Print Assumptions C16_sandwich.

Example C16_case : batch_ok 2 sample_rows /\ 0 < 1 /\ 0 < / 10.
Proof. split; [exact sample_rows_ok|]. lra. Qed.

(* C17. Weak duality, tightness, and strong duality at the best multiplier. *)
Theorem C17_weak_duality :
  forall P loss cost displace lp lpr n (rows : list (row P)) rho lam eps p A,
    batch_ok n rows -> 0 < rho -> 0 < eps -> 0 <= lam -> adversary n A rows ->
    adv_mean cost A rows <= Rpower rho p ->
    exists v, compute_dual P loss cost displace lp lpr (cfg "mean" rho lam eps p) n rows = Ok (Scalar (Fin v)) /\
              adv_mean (fun _ z => loss z) A rows - eps * adv_entropy A <= v.
Proof. exact weak_duality. Qed.
Print Assumptions C17_weak_duality.

Theorem C17_tight :
  forall P loss cost displace lp lpr n (rows : list (row P)) rho lam eps p,
    batch_ok n rows -> 0 < rho -> 0 < eps ->
    exists A v, adversary n A rows /\
      compute_dual P loss cost displace lp lpr (cfg "mean" rho lam eps p) n rows = Ok (Scalar (Fin v)) /\
      adv_mean (fun _ z => loss z) A rows - eps * adv_entropy A + lam * (Rpower rho p - adv_mean cost A rows) = v.
Proof. exact tight. Qed.
Print Assumptions C17_tight.

(* if some adversary is strictly within the budget, the least objective over lambda >= 0 is attained and equals the largest
   regularised loss of an adversary within the budget *)
Theorem C17_strong_duality :
  forall P loss cost displace lp lpr n (rows : list (row P)) rho eps p A0,
    batch_ok n rows -> 0 < rho -> 0 < eps -> adversary n A0 rows -> adv_mean cost A0 rows < Rpower rho p ->
    exists lam A v, 0 <= lam /\
      compute_dual P loss cost displace lp lpr (cfg "mean" rho lam eps p) n rows = Ok (Scalar (Fin v)) /\
      (forall l v', 0 <= l ->
         compute_dual P loss cost displace lp lpr (cfg "mean" rho l eps p) n rows = Ok (Scalar (Fin v')) -> v <= v') /\
      adversary n A rows /\ adv_mean cost A rows <= Rpower rho p /\
      adv_mean (fun _ z => loss z) A rows - eps * adv_entropy A = v /\
      (forall A', adversary n A' rows -> adv_mean cost A' rows <= Rpower rho p ->
                  adv_mean (fun _ z => loss z) A' rows - eps * adv_entropy A' <= v).
Proof. exact strong_duality. Qed.
Print Assumptions C17_strong_duality.

(* a non-uniform adversary strictly within budget 4 = 2^2 for the squared distance *)
Example C17_case :
  let A := [[3/4; 1/4]; [1/2; 1/2]] in
  adversary 2 A sample_rows /\ adv_mean (fun x z => (x - z) * (x - z)) A sample_rows < Rpower 2 2.
Proof.
  cbv zeta. split.
  - split; [reflexivity|]. repeat constructor; simpl; try lra.
  - rewrite <- (ppow_pos 2 2), ppow_2 by lra. unfold adv_mean, rmean, sample_rows; simpl. lra.
Qed.

(* C18. *)
Theorem C18_monotone_radius :
  forall P loss cost displace lp lpr n (rows : list (row P)) r1 r2 lam eps p,
    batch_ok n rows -> 0 < eps -> 0 <= p -> 0 <= lam -> 0 < r1 -> r1 <= r2 ->
    exists v1 v2, compute_dual P loss cost displace lp lpr (cfg "mean" r1 lam eps p) n rows = Ok (Scalar (Fin v1)) /\
                  compute_dual P loss cost displace lp lpr (cfg "mean" r2 lam eps p) n rows = Ok (Scalar (Fin v2)) /\ v1 <= v2.
Proof. exact mono_rho. Qed.
Print Assumptions C18_monotone_radius.

Theorem C18_convex_multiplier :
  forall P loss cost displace lp lpr n (rows : list (row P)) rho l1 l2 t eps p,
    batch_ok n rows -> 0 < eps -> 0 < rho -> 0 <= t <= 1 ->
    exists v1 v2 v,
      compute_dual P loss cost displace lp lpr (cfg "mean" rho l1 eps p) n rows = Ok (Scalar (Fin v1)) /\
      compute_dual P loss cost displace lp lpr (cfg "mean" rho l2 eps p) n rows = Ok (Scalar (Fin v2)) /\
      compute_dual P loss cost displace lp lpr (cfg "mean" rho (t * l1 + (1 - t) * l2) eps p) n rows = Ok (Scalar (Fin v)) /\
      v <= t * v1 + (1 - t) * v2.
Proof. exact convex_lam. Qed.
Print Assumptions C18_convex_multiplier.

Theorem C18_monotone_epsilon :
  forall P loss cost displace lp lpr n (rows : list (row P)) rho lam e1 e2 p,
    batch_ok n rows -> 0 < e1 -> e1 <= e2 -> 0 < rho ->
    exists v1 v2, compute_dual P loss cost displace lp lpr (cfg "mean" rho lam e1 p) n rows = Ok (Scalar (Fin v1)) /\
                  compute_dual P loss cost displace lp lpr (cfg "mean" rho lam e2 p) n rows = Ok (Scalar (Fin v2)) /\ v2 <= v1.
Proof. exact anti_eps. Qed.
Print Assumptions C18_monotone_epsilon.

(* Monotonicity in the radius fails at 0: the objective can drop when the radius becomes positive. *)
Theorem C18_zero_radius_refuted :
  exists (rows : list (row R)) (loss : R -> R) (cost : R -> R -> R) lam eps p rho v0 v,
    0 <= lam /\ 0 < eps /\ 0 < rho /\ batch_ok 1 rows /\
    compute_dual R loss cost no_displace (fun _ _ => 0) (fun _ _ _ => 0) (cfg "mean" 0 lam eps p) 1 rows = Ok (Scalar (Fin v0)) /\
    compute_dual R loss cost no_displace (fun _ _ => 0) (fun _ _ _ => 0) (cfg "mean" rho lam eps p) 1 rows = Ok (Scalar (Fin v)) /\
    v < v0.
Proof. exact zero_radius_not_monotone. Qed.
Print Assumptions C18_zero_radius_refuted.

Example C18_case : batch_ok 2 sample_rows /\ 0 < 1 /\ 0 <= 2 /\ 0 <= 3 /\ 0 < / 2 /\ / 2 <= 1 /\ 0 <= / 3 <= 1.
Proof. split; [exact sample_rows_ok|]. lra. Qed.

(* C19. *)
Theorem C19_shift :
  forall P cost displace lp lpr loss c n (rows : list (row P)) rho lam eps p,
    batch_ok n rows -> 0 < rho -> 0 < eps ->
    exists v, compute_dual P loss cost displace lp lpr (cfg "mean" rho lam eps p) n rows = Ok (Scalar (Fin v)) /\
              compute_dual P (fun z => loss z + c) cost displace lp lpr (cfg "mean" rho lam eps p) n rows = Ok (Scalar (Fin (v + c))).
Proof. exact loss_shift. Qed.
Print Assumptions C19_shift.

Theorem C19_monotone :
  forall P cost displace lp lpr loss loss' n (rows : list (row P)) rho lam eps p,
    batch_ok n rows -> 0 < rho -> 0 < eps ->
    (forall r z, In r rows -> In z (r_zeta r) -> loss z <= loss' z) ->
    exists v v', compute_dual P loss cost displace lp lpr (cfg "mean" rho lam eps p) n rows = Ok (Scalar (Fin v)) /\
                 compute_dual P loss' cost displace lp lpr (cfg "mean" rho lam eps p) n rows = Ok (Scalar (Fin v')) /\ v <= v'.
Proof. exact loss_mono. Qed.
Print Assumptions C19_monotone.

Theorem C19_order :
  forall P cost displace lp lpr loss n (rows rows1 rows2 : list (row P)) rho lam eps p,
    batch_ok n rows -> 0 < rho -> 0 < eps ->
    Forall2 (fun r r' => r_xi r = r_xi r' /\ Permutation (r_zeta r) (r_zeta r')) rows rows1 -> Permutation rows1 rows2 ->
    compute_dual P loss cost displace lp lpr (cfg "mean" rho lam eps p) n rows
    = compute_dual P loss cost displace lp lpr (cfg "mean" rho lam eps p) n rows2.
Proof. exact order_irrelevant. Qed.
Print Assumptions C19_order.

Example C19_case :
  Forall2 (fun r r' => r_xi r = r_xi r' /\ Permutation (r_zeta r) (r_zeta r')) sample_rows [mkrow 0 [2; 1]; mkrow 3 [5; 3]] /\
  Permutation [mkrow 0 [2; 1]; mkrow 3 [5; 3]] [mkrow 3 [5; 3]; mkrow 0 [2; 1]].
Proof. split; [repeat constructor|]. constructor. Qed.

(* C20. 'mean' is the mean of 'none'; 'sum' is not its sum unless rho = 0. *)
Theorem C20_mean_and_gap :
  forall P loss cost displace lp lpr n (rows : list (row P)) rho lam eps p,
    batch_ok n rows -> 0 < rho -> 0 < eps ->
    exists vs vm vsum,
      compute_dual P loss cost displace lp lpr (cfg "none" rho lam eps p) n rows = Ok (Vector (map Fin vs)) /\
      List.length vs = List.length rows /\
      compute_dual P loss cost displace lp lpr (cfg "mean" rho lam eps p) n rows = Ok (Scalar (Fin vm)) /\ vm = rmean vs /\
      compute_dual P loss cost displace lp lpr (cfg "sum" rho lam eps p) n rows = Ok (Scalar (Fin vsum)) /\
      rsum vs - vsum = (INR (List.length rows) - 1) * (lam * Rpower rho p - eps * ln (INR n)).
Proof. exact reductions. Qed.
Print Assumptions C20_mean_and_gap.

Theorem C20_zero_radius :
  forall P loss cost displace lp lpr d n (rows : list (row P)),
    d_rho d = Fin 0 -> rows <> [] ->
    let dr s := {| d_rho := d_rho d; d_lam := d_lam d; d_eps := d_eps d; d_power := d_power d; d_reduction := s;
                   d_imp := d_imp d; d_erm := d_erm d |} in
    exists vs, compute_dual P loss cost displace lp lpr (dr "none"%string) n rows = Ok (Vector (map Fin vs)) /\
      compute_dual P loss cost displace lp lpr (dr "mean"%string) n rows = Ok (Scalar (Fin (rmean vs))) /\
      compute_dual P loss cost displace lp lpr (dr "sum"%string) n rows = Ok (Scalar (Fin (rsum vs))).
Proof. exact reductions_erm. Qed.
Print Assumptions C20_zero_radius.

Theorem C20_sum_refuted :
  exists (rows : list (row R)) (loss : R -> R) (cost : R -> R -> R) lam eps p rho vs v,
    0 < lam /\ 0 < eps /\ 0 < rho /\ batch_ok 1 rows /\
    compute_dual R loss cost no_displace (fun _ _ => 0) (fun _ _ _ => 0) (cfg "none" rho lam eps p) 1 rows = Ok (Vector (map Fin vs)) /\
    compute_dual R loss cost no_displace (fun _ _ => 0) (fun _ _ _ => 0) (cfg "sum" rho lam eps p) 1 rows = Ok (Scalar (Fin v)) /\
    v <> rsum vs.
Proof. exact sum_reduction_refuted. Qed.
Print Assumptions C20_sum_refuted.

(* Unknown reductions are accepted at construction and rejected only at evaluation. *)
Theorem C20_unknown_reduction_fails_late :
  forall P loss cost displace lp lpr rho eps p s n (rows : list (row P)),
    s <> "mean"%string -> s <> "sum"%string -> s <> "none"%string -> 0 < rho ->
    exists d, dual_init (Fin rho) eps p (Some s) false = Ok d /\
              compute_dual P loss cost displace lp lpr d n rows = Raise NotImplementedError.
Proof. exact unknown_reduction. Qed.
Print Assumptions C20_unknown_reduction_fails_late.

Theorem C20_unknown_reduction_refuted :
  exists s d (rows : list (row R)),
    dual_init (Fin 1) 1 2 (Some s) false = Ok d /\ batch_ok 2 rows /\
    compute_dual R (fun x => x) (fun _ _ => 0) no_displace (fun _ _ => 0) (fun _ _ _ => 0) d 2 rows = Raise NotImplementedError.
Proof. exact unknown_reduction_witness. Qed.
Print Assumptions C20_unknown_reduction_refuted.

(* The losses are reduced only as a column, and only by the three documented names; "none" keeps every loss. *)
Theorem C20_reduces_columns :
  forall s dim l, (exists o, reduce_loss_batch s dim l = Ok o) <-> dim = 2%nat /\ (s = "mean" \/ s = "sum" \/ s = "none")%string.
Proof.
  intros s dim l. unfold reduce_loss_batch. split.
  - intros [o H]. destruct (Nat.eqb_spec dim 2) as [E|E]; [|discriminate]. split; [exact E|]. cbn [negb] in H.
    destruct (String.eqb_spec s "mean"); [auto|]. destruct (String.eqb_spec s "sum"); [auto|]. destruct (String.eqb_spec s "none"); [auto|discriminate].
  - intros [-> [->|[->| ->]]]; eexists; reflexivity.
Qed.
Print Assumptions C20_reduces_columns.
Example C20_reduces_columns_case : exists o, reduce_loss_batch "sum" 2 [Fin 1; Fin 2] = Ok o.
Proof. apply C20_reduces_columns. auto. Qed.

Example C20_case : "max"%string <> "mean"%string /\ "max"%string <> "sum"%string /\ "max"%string <> "none"%string /\ batch_ok 2 sample_rows.
Proof. split; [discriminate|]. split; [discriminate|]. split; [discriminate|exact sample_rows_ok]. Qed.

(* C21. Unlabelled Gaussian sampler: the correction is the log-ratio of the intended density and the density of the moved
   samples, and the objective is the importance-weighted estimate. *)
Theorem C21_density_ratio :
  forall s xi delta z,
    0 < s -> List.length delta = List.length xi -> List.length z = List.length xi ->
    exp (nolabels_log_prob s xi z - nolabels_log_prob_recentered s xi (vadd xi delta) z) * moved_gauss s xi delta z
    = gauss_vec s xi z.
Proof. exact correction_unlabelled. Qed.
Print Assumptions C21_density_ratio.

Theorem C21_weighted_estimate :
  forall (loss : vec -> R) (cost : vec -> vec -> R) (delta : row vec -> vec) s,
    0 < s ->
    forall n rows rho lam eps p,
      batch_ok n rows -> 0 < rho -> 0 < eps ->
      (forall r, In r rows -> r_mean r = r_xi r /\ List.length (delta r) = List.length (r_xi r) /\
                              (forall z, In z (r_zeta r) -> List.length z = List.length (r_xi r))) ->
      compute_dual vec loss cost
        (fun rows => Ok (map (fun r => (vadd (r_xi r) (delta r), map (fun z => vadd z (delta r)) (r_zeta r))) rows))
        (nolabels_log_prob s) (nolabels_log_prob_recentered s)
        {| d_rho := Fin rho; d_lam := lam; d_eps := eps; d_power := p; d_reduction := "mean"; d_imp := true; d_erm := false |} n rows
      = Ok (Scalar (Fin (lam * Rpower rho p + rmean (map (fun r => eps * ln (rmean (map (fun z =>
          let z' := vadd z (delta r) in
          exp ((loss z' - lam * cost (r_xi r) z') / eps)
          * (gauss_vec s (r_xi r) z' / moved_gauss s (r_xi r) (delta r) z')) (r_zeta r)))) rows)))).
Proof. exact weighted_value. Qed.
Print Assumptions C21_weighted_estimate.

(* Refuted for labelled samplers: the correction is always 0, even when the samples were moved. *)
Theorem C21_labelled_no_correction :
  forall sx sy mean xi_star zeta,
    labelled_log_prob sx sy mean zeta - labelled_log_prob_recentered sx sy mean xi_star zeta = 0.
Proof. exact labelled_correction_zero. Qed.
Print Assumptions C21_labelled_no_correction.

Theorem C21_labelled_refuted :
  exists s (xi y delta zx zy : vec),
    0 < s /\ List.length delta = List.length xi /\ List.length zx = List.length xi /\
    exp (labelled_log_prob s s (xi, y) (zx, zy) - labelled_log_prob_recentered s s (xi, y) (vadd xi delta, y) (zx, zy))
    * (moved_gauss s xi delta zx * gauss_vec s y zy)
    <> gauss_vec s xi zx * gauss_vec s y zy.
Proof. exact labelled_not_ratio. Qed.
Print Assumptions C21_labelled_refuted.

Example C21_case :
  let rows := [{| r_mean := [0; 0]; r_xi := [0; 0]; r_zeta := [[1; 0]; [0; 2]] |}] in
  batch_ok 2 rows /\ forall r, In r rows -> r_mean r = r_xi r /\ List.length [1; 1] = List.length (r_xi r) /\
                               (forall z, In z (r_zeta r) -> List.length z = List.length (r_xi r)).
Proof.
  cbv zeta. split; [split; [lia|split; [discriminate|repeat constructor]]|].
  intros r [<-|[]]. simpl. repeat split. intros z [<-|[<-|[]]]; reflexivity.
Qed.

(* C61 is false: when the samples of the points are on average farther than the budget, the objective is unbounded below
   over lambda >= 0 ... *)
Theorem C61_unbounded :
  forall P loss cost displace lp lpr n (rows : list (row P)) rho eps p (B : row P -> R) M,
    batch_ok n rows -> 0 < rho -> 0 < eps ->
    (forall r z, In r rows -> In z (r_zeta r) -> B r <= cost (r_xi r) z) ->
    Rpower rho p < rmean (map B rows) ->
    exists lam v, 0 <= lam /\
      compute_dual P loss cost displace lp lpr (cfg "mean" rho lam eps p) n rows = Ok (Scalar (Fin v)) /\ v < M.
Proof. exact unbounded_below. Qed.
Print Assumptions C61_unbounded.

Theorem C61_unbounded_refuted :
  exists (rows : list (row R)) (loss : R -> R) (cost : R -> R -> R) rho eps p,
    batch_ok 2 rows /\ 0 < rho /\ 0 < eps /\
    forall M, exists lam v, 0 <= lam /\
      compute_dual R loss cost no_displace (fun _ _ => 0) (fun _ _ _ => 0) (cfg "mean" rho lam eps p) 2 rows = Ok (Scalar (Fin v)) /\
      v < M.
Proof. exact unbounded_witness. Qed.
Print Assumptions C61_unbounded_refuted.

(* ... whereas a weighting of the samples strictly within the budget gives a lower bound (and a minimiser, C17). *)
Theorem C61_bounded_when_feasible :
  forall P loss cost displace lp lpr n (rows : list (row P)) rho lam eps p A,
    batch_ok n rows -> 0 < rho -> 0 < eps -> 0 <= lam -> adversary n A rows ->
    adv_mean cost A rows <= Rpower rho p ->
    exists v, compute_dual P loss cost displace lp lpr (cfg "mean" rho lam eps p) n rows = Ok (Scalar (Fin v)) /\
              adv_mean (fun _ z => loss z) A rows - eps * adv_entropy A <= v.
Proof. exact weak_duality. Qed.
Print Assumptions C61_bounded_when_feasible.

Example C61_case :
  (forall r z, In r [mkrow 0 [2; -2]] -> In z (r_zeta r) -> (fun _ => 4) r <= (r_xi r - z) * (r_xi r - z)) /\
  Rpower 1 2 < rmean (map (fun _ : row R => 4) [mkrow 0 [2; -2]]).
Proof.
  split.
  - intros r z [<-|[]] [<-|[<-|[]]]; simpl; lra.
  - rewrite <- (ppow_pos 1 2), ppow_2 by lra. unfold rmean; simpl. lra.
Qed.

(* ---------- concrete cases of the theorems above, one each: loss z, squared distance, the two rows of [sample_rows] ---------- *)
Definition dist2 (x z : R) : R := (x - z) * (x - z).
Definition no_lp (_ _ : R) : R := 0.
Definition no_lpr (_ _ _ : R) : R := 0.
Notation value_at d rows := (compute_dual R (fun z => z) dist2 no_displace no_lp no_lpr d 2 rows) (only parsing).
Definition sample_adversary : list (list R) := [[3/4; 1/4]; [1/2; 1/2]].

Example C14_zero_radius_case : value_at (cfg "mean" 0 5 1 2) sample_rows = Ok (Scalar (Fin (rmean [0; 3]))).
Proof. apply (C14_zero_radius R (fun z => z)); [reflexivity|reflexivity|discriminate]. Qed.
Example C14_zero_radius_presampled_case : snd (forward_pre R (fun z => z) dist2 no_displace no_lp no_lpr (cfg "mean" 0 5 1 2) None [(0, 0); (3, 3)] (Some (2%nat, [[1; 2]; [3; 5]])))
  = Ok (Scalar (Fin (rmean [0; 3]))).
Proof. rewrite C14_zero_radius_presampled; try reflexivity. discriminate. Qed.
Example C14_erm_mode_case :
  value_at {| d_rho := Fin 2; d_lam := 5; d_eps := 1; d_power := 2; d_reduction := "mean"; d_imp := false; d_erm := true |} sample_rows = Ok (Scalar (Fin (2 * 5 + rmean [0; 3]))).
Proof. apply (C14_erm_mode R (fun z => z)); try reflexivity. discriminate. Qed.
Example C15_negative_case : value_at (cfg "mean" (-1) 5 1 2) sample_rows = Raise ValueError.
Proof. apply (C15_negative R (fun z => z) dist2 no_displace no_lp no_lpr _ 2 sample_rows None [] None); [reflexivity|]. right. exists (-1). split; [reflexivity|lra]. Qed.
Example C15_nan_case :
  value_at {| d_rho := NaN; d_lam := 5; d_eps := 1; d_power := 2; d_reduction := "mean"; d_imp := false; d_erm := false |} sample_rows = Ok (Scalar NaN).
Proof. apply C15_nan; reflexivity. Qed.
Example C15_positive_finite_case : value_at (cfg "mean" 1 5 (1 / 2) 2) sample_rows = Ok (Scalar (Fin (5 * Rpower 1 2 +
  rmean [softmaximum (1 / 2) [1 - 5 * dist2 0 1; 2 - 5 * dist2 0 2]; softmaximum (1 / 2) [3 - 5 * dist2 3 3; 5 - 5 * dist2 3 5]]))).
Proof. apply (C15_positive_finite R); [exact sample_rows_ok|lra|lra]. Qed.
Example C15_infinite_case :
  value_at {| d_rho := PInf; d_lam := 5; d_eps := 1; d_power := 2; d_reduction := "mean"; d_imp := false; d_erm := false |} sample_rows = Ok (Scalar PInf).
Proof.
  rewrite C15_infinite; [|exact sample_rows_ok|lra|lra]. destruct (Reqb 5 0) eqn:E; [apply Reqb_true in E; lra|]. destruct (Rltb 5 0) eqn:L; [apply Rltb_true in L; lra|reflexivity].
Qed.
(* the penalised losses are 0, -2 and 3, 1 (multiplier 1): between their means and their maxima *)
Example C16_sandwich_case : exists v, value_at (cfg "mean" 1 1 (1 / 10) 2) sample_rows = Ok (Scalar (Fin v)) /\ 1 * Rpower 1 2 + 1 / 2 <= v <= 1 * Rpower 1 2 + 3 / 2.
Proof.
  destruct (C16_sandwich R (fun z => z) dist2 no_displace no_lp no_lpr 2 sample_rows 1 1 (1 / 10) 2) as (v & E & L & U); [exact sample_rows_ok|lra|lra|]. exists v. split; [exact E|]. split.
  - unfold rmean, sample_rows, dist2 in L. simpl in L. lra.
  - specialize (U (fun r => r_xi r)). unfold rmean, sample_rows, dist2 in U. simpl in U. specialize (U ltac:(intros r z [<-|[<-|[]]] [<-|[<-|[]]]; simpl; lra)). lra.
Qed.
Lemma sample_adversary_ok : adversary 2 sample_adversary sample_rows /\ adv_mean dist2 sample_adversary sample_rows < Rpower 2 2.
Proof. exact C17_case. Qed.
Example C17_weak_duality_case : exists v, value_at (cfg "mean" 2 3 1 2) sample_rows = Ok (Scalar (Fin v)) /\
  adv_mean (fun _ z => z) sample_adversary sample_rows - 1 * adv_entropy sample_adversary <= v.
Proof. destruct sample_adversary_ok as [A B]. apply C17_weak_duality; try lra; [exact sample_rows_ok|exact A]. Qed.
Example C17_tight_case : exists A v, adversary 2 A sample_rows /\ value_at (cfg "mean" 2 3 1 2) sample_rows = Ok (Scalar (Fin v)) /\
  adv_mean (fun _ z => z) A sample_rows - 1 * adv_entropy A + 3 * (Rpower 2 2 - adv_mean dist2 A sample_rows) = v.
Proof. apply C17_tight; try lra. exact sample_rows_ok. Qed.
Example C17_strong_duality_case : exists lam A v, 0 <= lam /\ value_at (cfg "mean" 2 lam 1 2) sample_rows = Ok (Scalar (Fin v)) /\ adversary 2 A sample_rows /\
  adv_mean dist2 A sample_rows <= Rpower 2 2 /\ adv_mean (fun _ z => z) A sample_rows - 1 * adv_entropy A = v /\
  adv_mean (fun _ z => z) sample_adversary sample_rows - 1 * adv_entropy sample_adversary <= v.
Proof.
  destruct sample_adversary_ok as [A B].
  destruct (C17_strong_duality R (fun z => z) dist2 no_displace no_lp no_lpr 2 sample_rows 2 1 2 sample_adversary) as (lam & A' & v & H1 & H2 & H3 & H4 & H5 & H6 & H7); try lra; try assumption; [exact sample_rows_ok|].
  exists lam, A', v. repeat (split; [assumption|]). apply H7; [exact A|lra].
Qed.
Example C18_monotone_radius_case : exists v1 v2, value_at (cfg "mean" 1 3 1 2) sample_rows = Ok (Scalar (Fin v1)) /\ value_at (cfg "mean" 2 3 1 2) sample_rows = Ok (Scalar (Fin v2)) /\ v1 <= v2.
Proof. apply C18_monotone_radius; try lra. exact sample_rows_ok. Qed.
Example C18_convex_multiplier_case : exists v1 v2 v, value_at (cfg "mean" 1 0 1 2) sample_rows = Ok (Scalar (Fin v1)) /\ value_at (cfg "mean" 1 4 1 2) sample_rows = Ok (Scalar (Fin v2)) /\
  value_at (cfg "mean" 1 (1 / 4 * 0 + (1 - 1 / 4) * 4) 1 2) sample_rows = Ok (Scalar (Fin v)) /\ v <= 1 / 4 * v1 + (1 - 1 / 4) * v2.
Proof. apply C18_convex_multiplier; try lra. exact sample_rows_ok. Qed.
Example C18_monotone_epsilon_case : exists v1 v2, value_at (cfg "mean" 1 3 (1 / 2) 2) sample_rows = Ok (Scalar (Fin v1)) /\ value_at (cfg "mean" 1 3 1 2) sample_rows = Ok (Scalar (Fin v2)) /\ v2 <= v1.
Proof. apply C18_monotone_epsilon; try lra. exact sample_rows_ok. Qed.
Example C19_shift_case : exists v, value_at (cfg "mean" 1 3 1 2) sample_rows = Ok (Scalar (Fin v)) /\
  compute_dual R (fun z => z + 7) dist2 no_displace no_lp no_lpr (cfg "mean" 1 3 1 2) 2 sample_rows = Ok (Scalar (Fin (v + 7))).
Proof. apply (C19_shift R dist2 no_displace no_lp no_lpr (fun z => z) 7); try lra. exact sample_rows_ok. Qed.
Example C19_monotone_case : exists v v', value_at (cfg "mean" 1 3 1 2) sample_rows = Ok (Scalar (Fin v)) /\
  compute_dual R (fun z => z * z) dist2 no_displace no_lp no_lpr (cfg "mean" 1 3 1 2) 2 sample_rows = Ok (Scalar (Fin v')) /\ v <= v'.
Proof. apply C19_monotone; try lra; [exact sample_rows_ok|]. intros r z [<-|[<-|[]]] [<-|[<-|[]]]; lra. Qed.
Example C19_order_case : value_at (cfg "mean" 1 3 1 2) sample_rows = value_at (cfg "mean" 1 3 1 2) [mkrow 3 [5; 3]; mkrow 0 [2; 1]].
Proof. destruct C19_case as [A B]. apply (C19_order R) with (rows1 := [mkrow 0 [2; 1]; mkrow 3 [5; 3]]); try lra; try assumption. exact sample_rows_ok. Qed.
(* two rows, two samples, multiplier 3, radius 1: 'sum' differs from the sum of 'none' by 3 - ln 2 *)
Example C20_mean_and_gap_case : exists vs vm vsum, value_at (cfg "none" 1 3 1 2) sample_rows = Ok (Vector (map Fin vs)) /\ List.length vs = 2%nat /\
  value_at (cfg "mean" 1 3 1 2) sample_rows = Ok (Scalar (Fin vm)) /\ vm = rmean vs /\
  value_at (cfg "sum" 1 3 1 2) sample_rows = Ok (Scalar (Fin vsum)) /\ rsum vs - vsum = 3 * Rpower 1 2 - ln 2.
Proof.
  destruct (C20_mean_and_gap R (fun z => z) dist2 no_displace no_lp no_lpr 2 sample_rows 1 3 1 2) as (vs & vm & vsum & H1 & H2 & H3 & H4 & H5 & H6); [exact sample_rows_ok|lra|lra|].
  exists vs, vm, vsum. repeat (split; [assumption|]). rewrite H6. change (List.length sample_rows) with 2%nat. replace (INR 2) with 2 by (simpl; ring). ring.
Qed.
Example C20_zero_radius_case : exists vs, value_at (cfg "none" 0 3 1 2) sample_rows = Ok (Vector (map Fin vs)) /\ value_at (cfg "mean" 0 3 1 2) sample_rows = Ok (Scalar (Fin (rmean vs))) /\
  value_at (cfg "sum" 0 3 1 2) sample_rows = Ok (Scalar (Fin (rsum vs))).
Proof. apply (C20_zero_radius R (fun z => z) dist2 no_displace no_lp no_lpr (cfg "mean" 0 3 1 2)); [reflexivity|discriminate]. Qed.
Example C20_unknown_reduction_case : exists d, dual_init (Fin 1) 1 2 (Some "max"%string) false = Ok d /\ value_at d sample_rows = Raise NotImplementedError.
Proof. apply C20_unknown_reduction_fails_late; try discriminate. lra. Qed.
Example C21_density_ratio_case :
  exp (nolabels_log_prob 2 [0; 0] [1; 3] - nolabels_log_prob_recentered 2 [0; 0] (vadd [0; 0] [1; 1]) [1; 3]) * moved_gauss 2 [0; 0] [1; 1] [1; 3] = gauss_vec 2 [0; 0] [1; 3].
Proof. apply C21_density_ratio; [lra|reflexivity|reflexivity]. Qed.
Example C21_weighted_estimate_case :
  let rows := [{| r_mean := [0; 0]; r_xi := [0; 0]; r_zeta := [[1; 0]; [0; 2]] |}] in
  exists v, compute_dual vec (fun z => hd 0 z) (fun x z => sqnorm (vsub x z)) (fun rows => Ok (map (fun r => (vadd (r_xi r) [1; 1], map (fun z => vadd z [1; 1]) (r_zeta r))) rows))
    (nolabels_log_prob 2) (nolabels_log_prob_recentered 2)
    {| d_rho := Fin 1; d_lam := 3; d_eps := 1; d_power := 2; d_reduction := "mean"; d_imp := true; d_erm := false |} 2 rows = Ok (Scalar (Fin v)).
Proof. cbv zeta. eexists. destruct C21_case as [A B]. refine (C21_weighted_estimate _ _ (fun _ => [1; 1]) 2 _ _ _ _ _ _ _ A _ _ B); lra. Qed.
Example C21_labelled_no_correction_case : labelled_log_prob 1 1 ([0], [0]) ([5], [1]) - labelled_log_prob_recentered 1 1 ([0], [0]) ([4], [0]) ([5], [1]) = 0.
Proof. apply C21_labelled_no_correction. Qed.
Example C61_unbounded_case : exists lam v, 0 <= lam /\
  compute_dual R (fun z => z) dist2 no_displace no_lp no_lpr (cfg "mean" 1 lam 1 2) 2 [mkrow 0 [2; -2]] = Ok (Scalar (Fin v)) /\ v < -1000.
Proof.
  destruct C61_case as [A B]. apply (C61_unbounded R) with (B := fun _ => 4); try lra; [|exact A]. split; [lia|]. split; [discriminate|]. repeat constructor.
Qed.
Example C61_bounded_when_feasible_case : exists v, value_at (cfg "mean" 2 1000 1 2) sample_rows = Ok (Scalar (Fin v)) /\
  adv_mean (fun _ z => z) sample_adversary sample_rows - 1 * adv_entropy sample_adversary <= v.
Proof. destruct sample_adversary_ok as [A B]. apply C61_bounded_when_feasible; try lra; [exact sample_rows_ok|exact A]. Qed.

(* ---------- C127 ---------- *)
(* For a radius that is neither 0 nor negative, a pre-sampled loss given samples, the same loss called again without samples, and a
   post-sampled loss that draws the same samples return the same; the samples are kept as given. Row j holds the j-th mean of the
   sampler, the j-th data point and the j-th column of the samples. *)
Theorem C127_same_value :
  forall P loss cost displace lp lpr d stored (data : list (P * P)) n (cols : list (list P)) (rows : list (row P)),
    xlt (Fin 0) (d_rho d) = true ->
    List.length data = List.length rows -> List.length cols = List.length rows ->
    (forall j r, nth_error rows j = Some r -> nth_error data j = Some (r_mean r, r_xi r) /\ nth_error cols j = Some (r_zeta r)) ->
    let value := forward_post P loss cost displace lp lpr true d n rows in
    forward_pre P loss cost displace lp lpr d stored data (Some (n, cols)) = (Some (n, cols), value) /\
    forward_pre P loss cost displace lp lpr d (Some (n, cols)) data None = (Some (n, cols), value).
Proof.
  intros P loss cost displace lp lpr d stored data n cols rows Hr L1 L2 H value.
  assert (E : with_samples P data (n, cols) = rows).
  { unfold with_samples. cbn [snd]. clear -L1 L2 H. revert data cols L1 L2 H. induction rows as [|r rows IH]; intros [|a data] [|c cols] L1 L2 H; try discriminate; [reflexivity|].
    cbn [map2]. destruct (H 0%nat r eq_refl) as [E1 E2]. cbn in E1, E2. injection E1 as ->. injection E2 as ->. cbn. destruct r. f_equal.
    apply IH; [simpl in L1; lia|simpl in L2; lia|]. intros j r Hj. apply (H (S j) r Hj). }
  assert (Z : xeq (d_rho d) (Fin 0) = false /\ xlt (d_rho d) (Fin 0) = false).
  { destruct (d_rho d) as [r| | |]; cbn in *; try discriminate; try (split; reflexivity). rewrite Rltb_true in Hr. split; [apply Reqb_false|apply Rltb_false]; lra. }
  destruct Z as [Z1 Z2]. unfold value, forward_pre, forward_post. rewrite E, Z1, Z2. cbn. auto.
Qed.
Print Assumptions C127_same_value.

(* without samples and without any kept, and without a sampler, there is nothing to evaluate *)
Theorem C127_no_samples :
  forall P loss cost displace lp lpr d (data : list (P * P)) n rows,
    forward_pre P loss cost displace lp lpr d None data None = (None, Raise ValueError) /\
    forward_post P loss cost displace lp lpr false d n rows = Raise ValueError.
Proof. intros. split; reflexivity. Qed.
Print Assumptions C127_no_samples.

(* importance sampling around means (1, 4) that are not the data points (0, 3), two samples for each *)
Example C127_case : forall displace lp lpr, exists value,
  forward_pre R (fun z => z) dist2 displace lp lpr (cfg "mean" 1 5 1 2) None [(1, 0); (4, 3)] (Some (2%nat, [[1; 2]; [3; 5]])) = (Some (2%nat, [[1; 2]; [3; 5]]), value) /\
  forward_post R (fun z => z) dist2 displace lp lpr true (cfg "mean" 1 5 1 2) 2 [{| r_mean := 1; r_xi := 0; r_zeta := [1; 2] |}; {| r_mean := 4; r_xi := 3; r_zeta := [3; 5] |}] = value.
Proof.
  intros displace lp lpr. eexists. split; [|reflexivity]. apply (C127_same_value R (fun z => z) dist2 displace lp lpr (cfg "mean" 1 5 1 2) None [(1, 0); (4, 3)] 2 [[1; 2]; [3; 5]]
    [{| r_mean := 1; r_xi := 0; r_zeta := [1; 2] |}; {| r_mean := 4; r_xi := 3; r_zeta := [3; 5] |}]); [cbn; apply Rltb_true; lra|reflexivity|reflexivity|].
  intros [|[|j]] r Hj; cbn in Hj; try (injection Hj as <-; split; reflexivity). destruct j; discriminate.
Qed.
