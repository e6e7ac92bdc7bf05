(* C154: the robust newsvendor and the robust location problem have a best decision, or do not, depending on the prices and the weights. *)
From Coq Require Import Reals List Bool ZArith String Lra Lia Psatz.
From Verif Require Import PyBase RList XReal LogMeanExp Tensor Loss_Model Loss_Spec Loss_Proofs Costs_Model Costs_Spec Costs_Proofs CostDecoder_Model OptCond_Model Samplers_Model Samplers_Spec Wrap_Model Wrap_Proofs Estim_Model Estim_Proofs Handover_Proofs Dual_Model Dual_Spec Dual_Proofs
  DualMinimax_Proofs Props_Dual2 Attain Best_Proofs BestDecision_Proofs TDual_Model TDual_Spec TDual_Proofs EstDual_Model EstDual_Spec EstDual_Proofs Props_Loss Props_TDual Props_Separable Props_Estim Props_EstDual Props_StationaryEst.
Import ListNotations.
Local Open Scope R_scope.
Local Notation length := List.length.

(* ---------- the newsvendor: buying price k, selling price u, order theta ---------- *)
Section News.
Variable cost : vec -> vec -> R.
Variable displace : list (row vec) -> Result (list (vec * list vec)).
Variable lp : vec -> vec -> R.
Variable lpr : vec -> vec -> vec -> R.
Variables (n : nat) (rows : list (row vec)) (rho eps p k u : R).
Notation value lam theta v := (is_value (fun x => k * theta - u * Rmin theta (hd 0 x)) cost displace lp lpr n rows rho lam eps p v).

(* At every multiplier some order is best exactly when the buying price is between 0 and the selling price. *)
Theorem C154_order_iff : forall lam, batch_ok n rows -> 0 < rho -> 0 < eps ->
  ((exists theta v, value lam theta v /\ forall theta' v', value lam theta' v' -> v <= v') <-> 0 <= k <= u).
Proof.
  intros lam Hb Hr He. split.
  - intros (theta & v & V & Q). destruct (Rle_dec 0 k) as [K0|K0]; [destruct (Rle_dec k u) as [K1|K1]; [lra|]|].
    all: destruct (news_unbounded cost n rows rho eps p k u Hb He lam ltac:(lra) v) as (t & Ht); specialize (Q t (news cost rows rho eps p k u lam t)); assert (v <= news cost rows rho eps p k u lam t) by (apply Q; apply value_iff; auto); lra.
  - intros Hk. destruct (demand_range rows) as (lo & hi & HL & HR).
    destruct (news_fixed cost n rows rho eps p k u Hb He lo hi lam Hk HL HR) as (theta & _ & Q). exists theta, (news cost rows rho eps p k u lam theta). split; [apply value_iff; auto|].
    intros theta' v' V. rewrite value_iff in V by assumption. rewrite V. apply Q.
Qed.
(* Otherwise the objective has no lower bound. *)
Theorem C154_order_unbounded : forall lam bound, batch_ok n rows -> 0 < rho -> 0 < eps -> k < 0 \/ u < k -> exists theta v, value lam theta v /\ v < bound.
Proof.
  intros lam bound Hb Hr He Hk. destruct (news_unbounded cost n rows rho eps p k u Hb He lam ltac:(lra) bound) as (t & Ht). exists t, (news cost rows rho eps p k u lam t). split; [apply value_iff; auto|exact Ht].
Qed.
(* A best order can be found among the sampled demands' range; when the prices are strictly ordered it is nowhere else. *)
Theorem C154_order_range : forall lam lo hi, batch_ok n rows -> 0 < rho -> 0 < eps -> lo <= hi -> (forall r z, In r rows -> In z (r_zeta r) -> lo <= hd 0 z <= hi) ->
  (0 <= k <= u -> exists theta v, lo <= theta <= hi /\ value lam theta v /\ forall theta' v', value lam theta' v' -> v <= v') /\
  (0 < k < u -> forall theta v, value lam theta v -> (forall theta' v', value lam theta' v' -> v <= v') -> lo <= theta <= hi).
Proof.
  intros lam lo hi Hb Hr He HL HR. split.
  - intros Hk. destruct (news_fixed cost n rows rho eps p k u Hb He lo hi lam Hk HL HR) as (theta & I & Q). exists theta, (news cost rows rho eps p k u lam theta). split; [exact I|]. split; [apply value_iff; auto|].
    intros theta' v' V. rewrite value_iff in V by assumption. rewrite V. apply Q.
  - intros Hk theta v V Q. destruct (Rlt_or_le theta lo) as [A|A]; [|destruct (Rlt_or_le hi theta) as [B|B]; [|lra]].
    all: destruct (smaller_everywhere vec cost displace lp lpr (fun x => k * theta - u * Rmin theta (hd 0 x)) (fun x => k * clamp lo hi theta - u * Rmin (clamp lo hi theta) (hd 0 x)) n rows rho lam eps p Hb Hr He) as (a & a' & Ea & Ea' & Lt);
      [intros r z Hin Hz; apply (clamp_strict k u lo hi theta z Hk (HR r z Hin Hz)); tauto|].
    all: pose proof (Q (clamp lo hi theta) a' Ea') as Q'; assert (Ev := eq_trans (eq_sym V) Ea); injection Ev as <-; lra.
Qed.
(* And together with the multiplier, when some adversary stays strictly within the budget. *)
Theorem C154_order_joint : forall A, batch_ok n rows -> 0 < rho -> 0 < eps -> 0 <= k <= u -> adversary n A rows -> adv_mean cost A rows < Rpower rho p ->
  exists lam theta v, 0 <= lam /\ value lam theta v /\ forall lam' theta' v', 0 <= lam' -> value lam' theta' v' -> v <= v'.
Proof.
  intros A Hb Hr He Hk HA Gap. destruct (news_joint cost n rows rho eps p k u Hb He A Hk HA Gap) as (lam & theta & L & Q).
  exists lam, theta, (news cost rows rho eps p k u lam theta). split; [exact L|]. split; [apply value_iff; auto|]. intros lam' theta' v' L' V. rewrite value_iff in V by assumption. rewrite V. apply Q. exact L'.
Qed.
End News.
Print Assumptions C154_order_iff.
Print Assumptions C154_order_unbounded.
Print Assumptions C154_order_range.
Print Assumptions C154_order_joint.

(* ---------- the location problem: samples are a point and a weight ---------- *)
Section Site.
Variable cost : vec * vec -> vec * vec -> R.
Variable displace : list (row (vec * vec)) -> Result (list ((vec * vec) * list (vec * vec))).
Variable lp : vec * vec -> vec * vec -> R.
Variable lpr : vec * vec -> vec * vec -> vec * vec -> R.
Variables (d n : nat) (rows : list (row (vec * vec))) (rho eps p reg : R).
Notation weight z := (hd 0 (snd z)).
Notation value lam pos v := (is_value (fun z => weight z * sqrt (sqnorm (vsub (fst z) pos)) + reg / 2 * sqnorm pos) cost displace lp lpr n rows rho lam eps p v).
Definition site_setting : Prop := batch_ok n rows /\ (forall r z, In r rows -> In z (r_zeta r) -> length (fst z) = d) /\ 0 < rho /\ 0 < eps /\ 0 <= reg.

(* A best location exists, at every multiplier, when there is a penalty or when some adversary makes the average weight positive ... *)
Theorem C154_site_fixed : forall lam A, site_setting -> adversary n A rows -> 0 < reg \/ 0 < adv_mean (fun _ z => weight z) A rows ->
  exists pos v, length pos = d /\ value lam pos v /\ forall pos' v', length pos' = d -> value lam pos' v' -> v <= v'.
Proof.
  intros lam A (Hb & Hw & Hr & He & R0) HA H. destruct (site_fixed cost d n rows rho eps p reg Hb He Hw A lam R0 HA H) as (pos & Lp & Q).
  exists pos, (site cost rows rho eps p reg lam pos). split; [exact Lp|]. split; [apply value_iff; auto|]. intros pos' v' Lp' V. rewrite value_iff in V by assumption. rewrite V. apply (Q pos' Lp').
Qed.
(* ... and together with the multiplier when that adversary stays strictly within the budget. *)
Theorem C154_site_joint : forall A, site_setting -> adversary n A rows -> adv_mean cost A rows < Rpower rho p -> 0 < reg \/ 0 < adv_mean (fun _ z => weight z) A rows ->
  exists lam pos v, 0 <= lam /\ length pos = d /\ value lam pos v /\ forall lam' pos' v', 0 <= lam' -> length pos' = d -> value lam' pos' v' -> v <= v'.
Proof.
  intros A (Hb & Hw & Hr & He & R0) HA Gap H. destruct (site_joint cost d n rows rho eps p reg Hb He Hw A R0 HA Gap H) as (lam & pos & L & Lp & Q).
  exists lam, pos, (site cost rows rho eps p reg lam pos). split; [exact L|]. split; [exact Lp|]. split; [apply value_iff; auto|]. intros lam' pos' v' L' Lp' V. rewrite value_iff in V by assumption. rewrite V. apply (Q lam' pos' L' Lp').
Qed.
(* Without a penalty, when every adversary makes the average weight negative, the objective has no lower bound. *)
Theorem C154_site_unbounded : forall lam bound, site_setting -> reg = 0 -> (0 < d)%nat -> (forall A, adversary n A rows -> adv_mean (fun _ z => weight z) A rows < 0) ->
  exists pos v, length pos = d /\ value lam pos v /\ v < bound.
Proof.
  intros lam bound (Hb & Hw & Hr & He & R0) Z Hd Neg. destruct (site_unbounded cost d n rows rho eps p reg Hb He Hw lam Z Hd Neg bound) as (pos & Lp & Lt).
  exists pos, (site cost rows rho eps p reg lam pos). split; [exact Lp|]. split; [apply value_iff; auto|exact Lt].
Qed.
End Site.
Print Assumptions C154_site_fixed.
Print Assumptions C154_site_joint.
Print Assumptions C154_site_unbounded.

(* ---------- the estimators ---------- *)
Lemma robust_point_rows cost power rho e lam L xs zs : zs <> [] -> robust cost power rho e lam L xs zs = objective vec L cost rho lam e power (point_rows [] xs xs zs).
Proof.
  intros Nz. unfold robust, objective, point_rows. f_equal. rewrite map_map. f_equal. apply map_ext. intros j. unfold soft, softmaximum, pen. cbn [r_xi r_zeta]. rewrite !map_map, lme_mean.
  - rewrite !map_map. reflexivity.
  - apply map_neq_nil. exact Nz.
Qed.
(* NewsVendor.fit with a torch solver: what it minimises at a given multiplier has a best order exactly when 0 <= k <= u *)
Theorem C154_newsvendor : forall pf a X d t, nv_dispatch pf a X = Ok (FTorch d t) -> X <> [] -> 0 < nv_rho a -> a_imp_samp d = false -> c_kind (a_cost d) = NC ->
  let xs := map (fun r => [rmean r]) X in
  exists c, tcost_of (a_cost d) = Some c /\ forall n zs e s grads, is_grid n (length xs) 1 zs -> zs <> [] -> a_epsilon d = Fin e -> 0 < e ->
  let value lam theta := t_compute_dual (nvd_call (nv_k a) (nv_u a) theta) (wrapped_of d [[theta]] []) c s grads (dual_of d (tc_power c) e lam) (Tensor.batch [length xs] 1 xs) None (grid n (length xs) 1 zs) None in
  forall lam, ((exists theta v, value lam theta = Ok (Scalar (Fin v)) /\ forall theta' v', value lam theta' = Ok (Scalar (Fin v')) -> v <= v') <-> 0 <= nv_k a <= nv_u a) /\
    (nv_k a < 0 \/ nv_u a < nv_k a -> forall bound, exists theta v, value lam theta = Ok (Scalar (Fin v)) /\ v < bound).
Proof.
  intros pf a X d t H Nx Hr Hi Hk xs.
  destruct (proj2 (C113_newsvendor pf a X d t 0 H Nx Hr)) as (c & Hc & _). exists c. split; [exact Hc|]. intros n zs e s grads G Nz Ee He value lam.
  assert (V : forall theta, value lam theta = Ok (Scalar (Fin (objective vec (fun x => nv_k a * theta - nv_u a * Rmin theta (hd 0 x)) (fun x z => pt_cost c (x, []) (z, [])) (nv_rho a) lam e (tc_power c) (point_rows [] xs xs zs))))).
  { intros theta. destruct (proj2 (C113_newsvendor pf a X d t theta H Nx Hr)) as (c' & Hc' & T). rewrite Hc in Hc'. injection Hc' as <-.
    destruct (T n zs e lam grads G Nz Ee ltac:(lra)) as [T1 _]. destruct (T1 Hk) as [T2 _]. specialize (T2 Hi s). unfold value. refine (eq_trans T2 _). rewrite robust_point_rows by exact Nz. reflexivity. }
  assert (Hn : (0 < n)%nat) by (destruct G as [<- _]; destruct zs; [congruence|cbn; lia]).
  assert (Hb : batch_ok n (point_rows [] xs xs zs)) by (apply point_rows_batch; [exact Hn|unfold xs; apply map_neq_nil; exact Nx|apply G]).
  set (cost := fun x z : vec => pt_cost c (x, []) (z, [])). set (disp := fun _ : list (row vec) => @Raise (list (vec * list vec)) ValueError).
  assert (W : forall theta v, value lam theta = Ok (Scalar (Fin v)) <-> is_value (fun x => nv_k a * theta - nv_u a * Rmin theta (hd 0 x)) cost disp (fun _ _ => 0) (fun _ _ _ => 0) n (point_rows [] xs xs zs) (nv_rho a) lam e (tc_power c) v).
  { intros theta v. rewrite V, value_iff by assumption. split; [intros Q; injection Q as <-; reflexivity|intros ->; reflexivity]. }
  split.
  - pose proof (C154_order_iff cost disp (fun _ _ => 0) (fun _ _ _ => 0) n (point_rows [] xs xs zs) (nv_rho a) e (tc_power c) (nv_k a) (nv_u a) lam Hb Hr He) as I. split.
    + intros (theta & v & Q1 & Q2). apply I. exists theta, v. split; [apply W; exact Q1|]. intros theta' v' Q. apply (Q2 theta' v'). apply W. exact Q.
    + intros Q. apply I in Q. destruct Q as (theta & v & Q1 & Q2). exists theta, v. split; [apply W; exact Q1|]. intros theta' v' Q. apply (Q2 theta' v'). apply W. exact Q.
  - intros Q bound. destruct (C154_order_unbounded cost disp (fun _ _ => 0) (fun _ _ _ => 0) n (point_rows [] xs xs zs) (nv_rho a) e (tc_power c) (nv_k a) (nv_u a) lam bound Hb Hr He Q) as (theta & v & Q1 & Q2).
    exists theta, v. split; [apply W; exact Q1|exact Q2].
Qed.
Print Assumptions C154_newsvendor.

(* Weber.fit *)
Theorem C154_weber : forall pf a X y d t k, wb_dispatch pf a X y = Ok (FTorch d t) -> X <> [] -> widths k X -> length y = length X -> 0 < wb_rho a -> a_imp_samp d = false ->
  let ys := map (fun v => [v]) y in
  exists c, tcost_of (a_cost d) = Some c /\ forall n zs zls e s grads, is_grid n (length X) k zs -> is_grid n (length X) 1 zls -> zs <> [] -> a_epsilon d = Fin e -> 0 < e ->
  let rows := labelled_rows X ys zs zls in
  let value lam pos := t_compute_dual (wb_call pos) (wrapped_of d [pos] []) c s grads (dual_of d (tc_power c) e lam)
                         (Tensor.batch [length X] k X) (Some (Tensor.batch [length X] 1 ys)) (grid n (length X) k zs) (Some (grid n (length X) 1 zls)) in
  let mean_weight A := adv_mean (fun _ z => hd 0 (snd z)) A rows in
  (forall lam A, adversary n A rows -> 0 < wb_l2_reg a \/ 0 < mean_weight A ->
     exists pos v, length pos = k /\ value lam pos = Ok (Scalar (Fin v)) /\ forall pos' v', length pos' = k -> value lam pos' = Ok (Scalar (Fin v')) -> v <= v') /\
  (forall A, adversary n A rows -> adv_mean (pt_cost c) A rows < Rpower (wb_rho a) (tc_power c) -> 0 < wb_l2_reg a \/ 0 < mean_weight A ->
     exists lam pos v, 0 <= lam /\ length pos = k /\ value lam pos = Ok (Scalar (Fin v)) /\ forall lam' pos' v', 0 <= lam' -> length pos' = k -> value lam' pos' = Ok (Scalar (Fin v')) -> v <= v') /\
  (wb_l2_reg a <= 0 -> (0 < k)%nat -> (forall A, adversary n A rows -> mean_weight A < 0) -> forall lam bound, exists pos v, length pos = k /\ value lam pos = Ok (Scalar (Fin v)) /\ v < bound).
Proof.
  intros pf a X y d t k H Nx Wd E Hr Hi ys.
  assert (T : forall pos, length pos = k -> trains_labelled d (wb_call pos) (wrapped_of d [pos] []) k 1 (fun x l => hd 0 l * sqrt (sqnorm (vsub x pos)) + penalty (wb_l2_reg a) pos) X ys (wb_rho a)).
  { intros pos <-. apply (C113_weber pf a X y d t pos); auto. }
  destruct (T (repeat 0 k) (repeat_length 0 k)) as (c & Hc & _). exists c. split; [exact Hc|].
  intros n zs zls e s grads G G' Nz Ee He rows value mean_weight.
  assert (Ey : length ys = length X) by (unfold ys; rewrite map_length; exact E).
  pose proof (rows_ok n k 1 X ys zs zls Ey Nx G G' Nz) as Hb. fold rows in Hb.
  set (reg := Rmax 0 (wb_l2_reg a)). set (disp := fun _ : list (row (vec * vec)) => @Raise (list ((vec * vec) * list (vec * vec))) ValueError).
  assert (W : forall lam pos v, length pos = k -> (value lam pos = Ok (Scalar (Fin v)) <->
    is_value (fun z => hd 0 (snd z) * sqrt (sqnorm (vsub (fst z) pos)) + reg / 2 * sqnorm pos) (pt_cost c) disp (fun _ _ => 0) (fun _ _ _ => 0) n rows (wb_rho a) lam e (tc_power c) v)).
  { intros lam pos v Lp. rewrite value_iff by assumption. destruct (T pos Lp) as (c' & Hc' & Q). rewrite Hc in Hc'. injection Hc' as <-.
    destruct (Q n zs zls e lam grads G G' Nz Ee ltac:(lra)) as [Q1 _]. specialize (Q1 Hi s). rewrite (robust_rows _ _ _ _ _ _ X ys zs zls n k 1 Ey G G' Nz) in Q1. fold rows in Q1.
    split; intros Z.
    - unfold value in Z. assert (Z' := eq_trans (eq_sym Q1) Z). injection Z' as <-. reflexivity.
    - unfold value. rewrite Z. exact Q1. }
  assert (St : site_setting k n rows (wb_rho a) e reg).
  { split; [exact Hb|]. split; [intros r z Hrr Hz; apply (row_zeta n k 1 X ys zs zls r z Ey G G' Hrr Hz)|]. split; [exact Hr|]. split; [exact He|apply Rmax_l]. }
  assert (Rg : forall A, 0 < wb_l2_reg a \/ 0 < mean_weight A -> 0 < reg \/ 0 < mean_weight A).
  { intros A [Q|Q]; [left; unfold reg; rewrite Rmax_right; lra|right; exact Q]. }
  split; [|split].
  - intros lam A HA Q. destruct (C154_site_fixed (pt_cost c) disp (fun _ _ => 0) (fun _ _ _ => 0) k n rows (wb_rho a) e (tc_power c) reg lam A St HA (Rg A Q)) as (pos & v & Lp & V & M).
    exists pos, v. split; [exact Lp|]. split; [apply W; assumption|]. intros pos' v' Lp' V'. apply (M pos' v' Lp'). apply W; assumption.
  - intros A HA Gap Q. destruct (C154_site_joint (pt_cost c) disp (fun _ _ => 0) (fun _ _ _ => 0) k n rows (wb_rho a) e (tc_power c) reg A St HA Gap (Rg A Q)) as (lam & pos & v & L & Lp & V & M).
    exists lam, pos, v. split; [exact L|]. split; [exact Lp|]. split; [apply W; assumption|]. intros lam' pos' v' L' Lp' V'. apply (M lam' pos' v' L' Lp'). apply W; assumption.
  - intros Z Hk Neg lam bound. assert (Rz : reg = 0) by (unfold reg; rewrite Rmax_left; lra).
    destruct (C154_site_unbounded (pt_cost c) disp (fun _ _ => 0) (fun _ _ _ => 0) k n rows (wb_rho a) e (tc_power c) reg lam bound St Rz Hk Neg) as (pos & v & Lp & V & M).
    exists pos, v. split; [exact Lp|]. split; [apply W; assumption|exact M].
Qed.
Print Assumptions C154_weber.

(* ---------- the property is false ---------- *)
(* Neither constructor looks at the prices or the weights. NewsVendor(k=7, u=5, solver='entropic_torch_pre') on two demands *)
Definition nv_priced (k u : R) : nv_args :=
  {| nv_rho := 1 / 100; nv_k := k; nv_u := u; nv_cost := "t-NC-1-2"; nv_l2_reg := 0; nv_solver_reg := 1 / 100; nv_lr := None;
     nv_n_zeta := 10; nv_solver_name := "entropic_torch_pre"; nv_seed := 0; nv_n_iter := None |}.
Lemma nv_priced_fits k u X : exists d, nv_dispatch read (nv_priced k u) X = Ok (FTorch d None) /\ a_imp_samp d = false /\ c_kind (a_cost d) = NC /\ a_epsilon d = Fin (1 / 100).
Proof.
  unfold nv_dispatch. destruct (decode_12 read eq_refl eq_refl) as [c Hc]. cbn [nv_cost nv_priced]. rewrite Hc. cbn [bind nv_solver_name].
  change (String.eqb "entropic_torch_pre" "entropic") with false. change (contains "torch" "entropic_torch_pre") with true. cbv iota.
  match goal with |- context [dualize read ?u] => destruct (dualize_outcome read u (mkParsed "t" "NC" (Fin 1) (Fin 2) dk) (mkCost NC (Fin 2) (Fin 1) None "Norm") eq_refl eq_refl (sigma_none_pos _)) as [H _];
      destruct H as (d & Hd & Ec & _ & _ & _ & _ & Ee & Hi); [left; split; [reflexivity|auto]|]; rewrite Hd end.
  exists d. split; [reflexivity|]. split; [|split; [rewrite Ec; reflexivity|exact Ee]].
  destruct (a_imp_samp d); [exfalso|reflexivity]. destruct (proj1 Hi eq_refl) as (_ & I & _). cbn in I. injection I. lra.
Qed.
Theorem C154_refuted : exists pf a X d t, nv_dispatch pf a X = Ok (FTorch d t) /\ X <> [] /\ 0 < nv_rho a /\ 0 < nv_k a /\ 0 < nv_u a /\
  let xs := map (fun r => [rmean r]) X in
  exists c e, tcost_of (a_cost d) = Some c /\ a_epsilon d = Fin e /\ 0 < e /\
  forall n zs s grads lam bound, is_grid n (length xs) 1 zs -> zs <> [] ->
  exists theta v, t_compute_dual (nvd_call (nv_k a) (nv_u a) theta) (wrapped_of d [[theta]] []) c s grads (dual_of d (tc_power c) e lam) (Tensor.batch [length xs] 1 xs) None (grid n (length xs) 1 zs) None = Ok (Scalar (Fin v)) /\ v < bound.
Proof.
  destruct (nv_priced_fits 7 5 [[1]; [2]]) as (d & Hd & Hi & Hk & Ee). exists read, (nv_priced 7 5), [[1]; [2]], d, None.
  split; [exact Hd|]. split; [discriminate|]. split; [cbn; lra|]. split; [cbn; lra|]. split; [cbn; lra|]. intros xs.
  destruct (C154_newsvendor read (nv_priced 7 5) [[1]; [2]] d None Hd ltac:(discriminate) ltac:(cbn; lra) Hi Hk) as (c & Hc & Q). fold xs in Q.
  exists c, (1 / 100). split; [exact Hc|]. split; [exact Ee|]. split; [lra|]. intros n zs s grads lam bound G Nz.
  destruct (Q n zs (1 / 100) s grads G Nz Ee ltac:(lra) lam) as [_ U]. apply U. right. cbn. lra.
Qed.
Print Assumptions C154_refuted.

(* Weber(cost='t-NLC-1-2') on one point with weight -1, sampled without noise on the weight *)
Definition wb_plain (l2 : R) : wb_args :=
  {| wb_rho := 1 / 10; wb_kappa := 10; wb_solver_reg := 1 / 100; wb_sampler_reg := 1 / 100; wb_lr := None; wb_l2_reg := l2;
     wb_n_zeta := 10; wb_cost := "t-NLC-1-2"; wb_solver_name := "entropic_torch"; wb_seed := 0; wb_n_iter := None |}.
Lemma wb_plain_fits l2 X y : exists d, wb_dispatch read (wb_plain l2) X y = Ok (FTorch d None) /\ a_imp_samp d = false /\ a_epsilon d = Fin (1 / 100).
Proof.
  unfold wb_dispatch. cbn [wb_solver_name wb_plain]. change (String.eqb "entropic_torch" "entropic") with false. change (contains "torch" "entropic_torch") with true. cbv iota.
  assert (Q : cost_from_parse_torch xr x_ge0 (mkParsed "t" "NLC" (Fin 1) (Fin 2) dk) = Ok (mkCost NLC (Fin 2) (Fin 1) (Some dk) "Kappa-norm")).
  { unfold cost_from_parse_torch. cbn [p_id p_kappa p_type p_power]. cbn [String.eqb Ascii.eqb Bool.eqb]. unfold NormLabelCost. rewrite dk_ge0. reflexivity. }
  match goal with |- context [dualize read ?u] => destruct (dualize_outcome read u (mkParsed "t" "NLC" (Fin 1) (Fin 2) dk) _ eq_refl Q) as [H _]; [cbn; lra|];
      destruct H as (d & Hd & Ec & _ & _ & _ & _ & Ee & Hi); [left; split; [reflexivity|auto]|]; rewrite Hd end.
  cbn [bind wb_n_iter wb_plain]. eexists. split; [reflexivity|]. split; [|exact Ee]. cbn [a_imp_samp set_n_iter].
  destruct (a_imp_samp d); [exfalso|reflexivity]. destruct (proj1 Hi eq_refl) as (_ & I & _). cbn in I. injection I. lra.
Qed.
Theorem C154_weber_refuted : exists pf a X y d t, wb_dispatch pf a X y = Ok (FTorch d t) /\ X <> [] /\ length y = length X /\ 0 < wb_rho a /\
  let ys := map (fun v => [v]) y in
  exists c e n zs, tcost_of (a_cost d) = Some c /\ a_epsilon d = Fin e /\ 0 < e /\ is_grid n (length X) 2 zs /\ is_grid n (length X) 1 (repeat ys n) /\
  forall s grads lam bound, exists pos v, length pos = 2%nat /\
    t_compute_dual (wb_call pos) (wrapped_of d [pos] []) c s grads (dual_of d (tc_power c) e lam)
      (Tensor.batch [length X] 2 X) (Some (Tensor.batch [length X] 1 ys)) (grid n (length X) 2 zs) (Some (grid n (length X) 1 (repeat ys n))) = Ok (Scalar (Fin v)) /\ v < bound.
Proof.
  destruct (wb_plain_fits 0 [[1; 2]] [-1]) as (d & Hd & Hi & Ee). exists read, (wb_plain 0), [[1; 2]], [-1], d, None.
  split; [exact Hd|]. split; [discriminate|]. split; [reflexivity|]. split; [cbn; lra|]. intros ys.
  destruct (C154_weber read (wb_plain 0) [[1; 2]] [-1] d None 2 Hd ltac:(discriminate) ltac:(repeat constructor) eq_refl ltac:(cbn; lra) Hi) as (c & Hc & Q).
  assert (G : is_grid 2 (length [[1; 2]]) 2 [[[1; 2]]; [[0; 5]]]) by (split; [reflexivity|]; repeat (apply Forall_cons; [split; [reflexivity|repeat constructor]|]); constructor).
  assert (G' : is_grid 2 (length [[1; 2]]) 1 (repeat ys 2)) by (split; [reflexivity|]; repeat (apply Forall_cons; [split; [reflexivity|repeat constructor]|]); constructor).
  exists c, (1 / 100), 2%nat, [[[1; 2]]; [[0; 5]]]. split; [exact Hc|]. split; [exact Ee|]. split; [lra|]. split; [exact G|]. split; [exact G'|]. intros s grads lam bound.
  destruct (Q 2%nat [[[1; 2]]; [[0; 5]]] (repeat ys 2) (1 / 100) s grads G G' ltac:(discriminate) Ee ltac:(lra)) as (_ & _ & U). apply U; [cbn; lra|lia|].
  intros A [LA FA]. destruct A as [|q [|]]; try discriminate. destruct (Forall_inv FA) as (Lq & Fq & Sq). destruct q as [|a [|b [|]]]; try discriminate. cbn in Sq. unfold adv_mean, rmean. cbn. lra.
Qed.
Print Assumptions C154_weber_refuted.

(* ---------- examples ---------- *)
Definition demands : list (row vec) := [{| r_mean := [2]; r_xi := [2]; r_zeta := [[2]; [3]] |}; {| r_mean := [5]; r_xi := [5]; r_zeta := [[5]; [4]] |}].
Example C154_order_case : batch_ok 2 demands /\ 0 <= nv_k nv_defaults <= nv_u nv_defaults /\ 0 < nv_k nv_defaults < nv_u nv_defaults /\
  (forall r z, In r demands -> In z (r_zeta r) -> 2 <= hd 0 z <= 5) /\
  let A := [[1; 0]; [1; 0]] in adversary 2 A demands /\ adv_mean (fun x z : vec => sqnorm (vsub x z)) A demands < Rpower 1 2.
Proof.
  split; [split; [lia|split; [discriminate|repeat constructor]]|]. split; [cbn; lra|]. split; [cbn; lra|]. split; [intros r z [<-|[<-|[]]] [<-|[<-|[]]]; cbn; lra|].
  cbv zeta. split.
  - split; [reflexivity|]. repeat (apply Forall_cons; [split; [reflexivity|split; [repeat (apply Forall_cons; [lra|]); constructor|cbn; lra]]|]). constructor.
  - replace (adv_mean _ _ _) with 0; [apply exp_pos|]. unfold adv_mean, rmean, sqnorm, dot, vsub. cbn. field.
Qed.
Definition sites : list (row (vec * vec)) := [{| r_mean := ([1; 2], [3]); r_xi := ([1; 2], [3]); r_zeta := [([1; 2], [3]); ([0; 2], [-1])] |}].
Example C154_site_case : site_setting 2 2 sites 1 (1 / 2) 0 /\ adversary 2 [[1; 0]] sites /\ 0 < adv_mean (fun _ z => hd 0 (snd z)) [[1; 0]] sites /\
  adv_mean (fun x z : vec * vec => sqnorm (vsub (fst x) (fst z))) [[1; 0]] sites < Rpower 1 2.
Proof.
  split; [|split; [|split]].
  - split; [split; [lia|split; [discriminate|repeat constructor]]|]. split; [intros r z [<-|[]] [<-|[<-|[]]]; reflexivity|lra].
  - split; [reflexivity|]. repeat (apply Forall_cons; [split; [reflexivity|split; [repeat (apply Forall_cons; [lra|]); constructor|cbn; lra]]|]). constructor.
  - unfold adv_mean, rmean. cbn. lra.
  - replace (adv_mean _ _ _) with 0; [apply exp_pos|]. unfold adv_mean, rmean, sqnorm, dot, vsub. cbn. field.
Qed.
(* all sampled weights negative *)
Example C154_site_unbounded_case : let rows := [{| r_mean := ([1], [-3]); r_xi := ([1], [-3]); r_zeta := [([1], [-3]); ([0], [-1])] |}] in
  site_setting 1 2 rows 1 (1 / 2) 0 /\ forall A, adversary 2 A rows -> adv_mean (fun _ z => hd 0 (snd z)) A rows < 0.
Proof.
  cbv zeta. split; [split; [split; [lia|split; [discriminate|repeat constructor]]|split; [intros r z [<-|[]] [<-|[<-|[]]]; reflexivity|lra]]|].
  intros A [LA FA]. destruct A as [|q [|]]; try discriminate. destruct (Forall_inv FA) as (Lq & Fq & Sq). destruct q as [|a [|b [|]]]; try discriminate. cbn in Sq.
  pose proof (Forall_inv Fq) as Ha. pose proof (Forall_inv (Forall_inv_tail Fq)) as Hb. cbv beta in Ha, Hb. unfold adv_mean, rmean. cbn. lra.
Qed.
Example C154_newsvendor_case : exists d t, nv_dispatch read (nv_priced 5 7) [[1]; [2]] = Ok (FTorch d t) /\ a_imp_samp d = false /\ c_kind (a_cost d) = NC /\
  a_epsilon d = Fin (1 / 100) /\ is_grid 2 2 1 [[[1]; [2]]; [[0]; [4]]].
Proof.
  destruct (nv_priced_fits 5 7 [[1]; [2]]) as (d & Hd & Hi & Hk & Ee). exists d, None. split; [exact Hd|]. split; [exact Hi|]. split; [exact Hk|]. split; [exact Ee|].
  split; [reflexivity|]. repeat (apply Forall_cons; [split; [reflexivity|repeat constructor]|]). constructor.
Qed.
Example C154_weber_case : exists d t, wb_dispatch read (wb_plain 1) [[1]; [3]] [2; 5] = Ok (FTorch d t) /\ a_imp_samp d = false /\ a_epsilon d = Fin (1 / 100) /\ widths 1 [[1]; [3]] /\
  is_grid 2 2 1 [[[1]; [2]]; [[0]; [4]]] /\ is_grid 2 2 1 [[[2]; [5]]; [[2]; [6]]] /\ 0 < wb_l2_reg (wb_plain 1).
Proof.
  destruct (wb_plain_fits 1 [[1]; [3]] [2; 5]) as (d & Hd & Hi & Ee). exists d, None. split; [exact Hd|]. split; [exact Hi|]. split; [exact Ee|]. split; [repeat constructor|].
  split; [|split; [|cbn; lra]]; (split; [reflexivity|]; repeat (apply Forall_cons; [split; [reflexivity|repeat constructor]|]); constructor).
Qed.
