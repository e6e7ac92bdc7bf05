(* C151: the robust portfolio problem has a best portfolio, and the softmax parameters can reach it. *)
From Coq Require Import Reals List Bool String Lra Lia Psatz FunctionalExtensionality.
From Verif Require Import PyBase RList XReal LogMeanExp Tensor Loss_Model Loss_Spec Loss_Proofs Costs_Model Costs_Spec Costs_Proofs Dual_Model Dual_Spec Dual_Proofs DualMinimax_Proofs Props_Dual2 Attain Best_Proofs
  BestPort_Proofs TDual_Model TDual_Spec TDual_Proofs EstDual_Model EstDual_Proofs Props_Loss Props_TDual Props_Separable.
Import ListNotations.
Local Open Scope R_scope.
Local Notation length := List.length.

Section Port.
Variable cost : vec -> vec -> R.
Variable displace : list (row vec) -> Result (list (vec * list vec)).
Variable lp : vec -> vec -> R.
Variable lpr : vec -> vec -> vec -> R.
Variables (n d : nat) (rows : list (row vec)) (rho eps p eta alpha : R).
Notation value lam w tau v := (is_value (risk_loss eta alpha w tau) cost displace lp lpr n rows rho lam eps p v).
Definition samples_of_width : Prop := forall r z, In r rows -> In z (r_zeta r) -> length z = d.
Definition setting : Prop := batch_ok n rows /\ samples_of_width /\ 0 < rho /\ 0 < eps /\ 0 <= eta /\ 0 < alpha <= 1.

(* At every multiplier some portfolio and threshold are best, among all weights that are not negative and sum to one. *)
Theorem C151_fixed : forall lam, setting -> (0 < d)%nat ->
  exists w tau v, invested d w /\ value lam w tau v /\ forall w' tau' v', invested d w' -> value lam w' tau' v' -> v <= v'.
Proof.
  intros lam (Hb & Hw & Hr & He & Heta & Ha) Hd. destruct d as [|k] eqn:Ed; [lia|]. unfold samples_of_width in Hw. rewrite Ed in Hw.
  destruct (port_fixed cost k n rows rho eps p eta alpha Hb He Heta Ha lam) as (w & tau & W & Q).
  exists w, tau, (port cost rows rho eps p eta alpha lam w tau). split; [exact W|]. split; [apply value_iff; auto|]. intros w' tau' v' W' V'. rewrite value_iff in V' by assumption. rewrite V'. apply Q. exact W'.
Qed.

(* And together with the multiplier, under the budget condition of C150. *)
Theorem C151_joint : forall A, setting -> (0 < d)%nat -> adversary n A rows -> adv_mean cost A rows < Rpower rho p ->
  exists lam w tau v, 0 <= lam /\ invested d w /\ value lam w tau v /\ forall lam' w' tau' v', 0 <= lam' -> invested d w' -> value lam' w' tau' v' -> v <= v'.
Proof.
  intros A (Hb & Hw & Hr & He & Heta & Ha) Hd HA Gap. destruct d as [|k] eqn:Ed; [lia|].
  destruct (port_joint cost k n rows rho eps p eta alpha Hb He Heta Ha A HA Gap) as (lam & w & tau & L & W & Q).
  exists lam, w, tau, (port cost rows rho eps p eta alpha lam w tau). split; [exact L|]. split; [exact W|]. split; [apply value_iff; auto|].
  intros lam' w' tau' v' L' W' V'. rewrite value_iff in V' by assumption. rewrite V'. apply Q; assumption.
Qed.

(* values vary continuously with the weights *)
Lemma close_values lam w tau delta : setting -> invested d w -> 0 < delta ->
  exists w' v v', length w' = d /\ long_only w' /\ value lam w tau v /\ value lam w' tau v' /\ v' < v + delta.
Proof.
  intros (Hb & Hw & Hr & He & Heta & Ha) W Hd. destruct (port_lip cost n rows rho eps p eta alpha Hb He Heta Ha) as (L & HL & QL).
  set (t := Rmin 1 (delta / (2 * L + 1) / 2)). assert (T0 : 0 < delta / (2 * L + 1) / 2) by (apply Rdiv_lt_0_compat; [apply Rdiv_lt_0_compat; lra|lra]).
  assert (T : 0 < t <= 1) by (unfold t; split; [apply Rmin_glb_lt; lra|apply Rmin_l]). destruct (mixed_positive d t w W T) as [Lm Om]. pose proof (mixed_close d t w W T) as D.
  exists (mixed t w), (port cost rows rho eps p eta alpha lam w tau), (port cost rows rho eps p eta alpha lam (mixed t w) tau).
  split; [exact Lm|]. split; [exact Om|]. split; [apply value_iff; auto|]. split; [apply value_iff; auto|].
  assert (E : length (mixed t w) = length w) by (destruct W as [Lw _]; unfold vec in *; congruence).
  pose proof (QL lam lam (mixed t w) w tau tau E) as Q. replace (lam - lam) with 0 in Q by ring. replace (tau - tau) with 0 in Q by ring. rewrite Rabs_R0, !Rplus_0_l in Q.
  pose proof (Rle_abs (port cost rows rho eps p eta alpha lam (mixed t w) tau - port cost rows rho eps p eta alpha lam w tau)).
  assert (t <= delta / (2 * L + 1) / 2) by apply Rmin_r. assert (L * dist1 (mixed t w) w <= L * (2 * t)) by (apply Rmult_le_compat_l; assumption).
  assert (M : L * (2 * t) <= L * (delta / (2 * L + 1))) by (apply Rmult_le_compat_l; lra).
  assert (L * (delta / (2 * L + 1)) < delta) by (apply (Rmult_lt_reg_r (2 * L + 1)); [lra|]; replace (L * (delta / (2 * L + 1)) * (2 * L + 1)) with (L * delta) by (field; lra); nra). lra.
Qed.

(* The raw weights of the module reach the best value exactly when some best portfolio holds every asset. *)
Theorem C151_reached_iff : forall lam, setting -> (0 < d)%nat ->
  (exists raw tau v, length raw = d /\ value lam (softmax raw) tau v /\ forall raw' tau' v', length raw' = d -> value lam (softmax raw') tau' v' -> v <= v') <->
  (exists w tau v, length w = d /\ long_only w /\ value lam w tau v /\ forall w' tau' v', invested d w' -> value lam w' tau' v' -> v <= v').
Proof.
  intros lam St Hd. pose proof St as (Hb & Hw & Hr & He & Heta & Ha). split.
  - intros (raw & tau & v & Lr & V & Q). exists (softmax raw), tau, v. assert (N : raw <> []) by (intros ->; cbn in Lr; lia).
    split; [rewrite softmax_length; exact Lr|]. split; [apply softmax_long_only; exact N|]. split; [exact V|].
    intros w' tau' v' W' V'. destruct (Rle_or_lt v v') as [H|H]; [exact H|exfalso].
    destruct (close_values lam w' tau' (v - v') St W' ltac:(lra)) as (w2 & a & a' & L2 & O2 & Va & Va' & C).
    rewrite value_iff in V', Va by assumption. assert (a = v') by congruence. subst a.
    pose proof (Q (map ln w2) tau' a') as Q'. rewrite (softmax_onto w2 O2), map_length in Q'. specialize (Q' L2 Va'). lra.
  - intros (w & tau & v & Lw & O & V & Q). exists (map ln w), tau, v. split; [rewrite map_length; exact Lw|]. rewrite (softmax_onto w O). split; [exact V|].
    intros raw' tau' v' Lr V'. apply (Q (softmax raw') tau' v'); [|exact V']. rewrite <- Lr. apply softmax_invested. intros ->. cbn in Lr. lia.
Qed.

(* When one asset leads in every sample, raising its raw weight always lowers the value ... *)
Definition one_leads (i : nat) : Prop := forall r z, In r rows -> In z (r_zeta r) -> leads i z.
Theorem C151_always_lower : forall i lam raw tau t, setting -> one_leads i -> length raw = d -> 0 < t ->
  exists v v', value lam (softmax raw) tau v /\ value lam (softmax (bump i t raw)) tau v' /\ v' < v.
Proof.
  intros i lam raw tau t (Hb & Hw & Hr & He & Heta & Ha) Hi Lr T. unfold is_value. apply smaller_everywhere; auto.
  intros r z Hin Hz. apply risk_better; [exact Heta|lra|]. apply bump_better; [rewrite Lr; symmetry; apply (Hw r z Hin Hz)|apply (Hi r z Hin Hz)|exact T].
Qed.
(* ... so no raw weights are best, whatever the threshold and the multiplier. *)
Theorem C151_no_minimiser : forall i, setting -> one_leads i ->
  ~ exists lam raw tau v, length raw = d /\ value lam (softmax raw) tau v /\ forall raw' v', length raw' = d -> value lam (softmax raw') tau v' -> v <= v'.
Proof.
  intros i St Hi (lam & raw & tau & v & Lr & V & Q). destruct (C151_always_lower i lam raw tau 1 St Hi Lr ltac:(lra)) as (a & a' & Va & Va' & H).
  pose proof St as (Hb & Hw & Hr & He & Heta & Ha). rewrite value_iff in Va, V by assumption.
  specialize (Q (bump i 1 raw) a'). rewrite bump_length in Q. specialize (Q Lr Va'). lra.
Qed.

(* The limit is the portfolio that holds the leading asset only: every softmax portfolio is above it, and comes as close as one likes. *)
Fixpoint all_in (i m : nat) : vec := match m with O => [] | S m => match i with O => 1 :: repeat 0 m | S i => 0 :: all_in i m end end.
Lemma all_in_length : forall m i, length (all_in i m) = m.
Proof. induction m as [|m IH]; intros [|i]; cbn; rewrite ?repeat_length, ?IH; reflexivity. Qed.
Lemma zeros_sum m : rsum (repeat 0 m) = 0.
Proof. induction m as [|m IH]; [reflexivity|]. change (0 + rsum (repeat 0 m) = 0). rewrite IH. ring. Qed.
Lemma all_in_invested : forall m i, (i < m)%nat -> invested m (all_in i m).
Proof.
  intros m i H. split; [apply all_in_length|]. revert i H. induction m as [|m IH]; intros [|i] H; try lia; cbn [all_in].
  - split; [constructor; [lra|apply Forall_forall; intros a Ia; apply repeat_spec in Ia; lra]|]. change (1 + rsum (repeat 0 m) = 1). rewrite zeros_sum. ring.
  - destruct (IH i ltac:(lia)) as [F S]. split; [constructor; [lra|exact F]|]. change (0 + rsum (all_in i m) = 1). rewrite S. ring.
Qed.
Lemma zeros_dot : forall m x, dot (repeat 0 m) x = 0.
Proof. induction m as [|m IH]; intros [|a x]; try reflexivity. change (0 * a + dot (repeat 0 m) x = 0). rewrite IH. ring. Qed.
Lemma all_in_dot : forall m i x, length x = m -> dot (all_in i m) x = nth i x 0.
Proof.
  induction m as [|m IH]; intros i [|a x] L; try discriminate; [destruct i; reflexivity|]. injection L as L. destruct i as [|i]; cbn [all_in nth].
  - change (1 * a + dot (repeat 0 m) x = a). rewrite zeros_dot. ring.
  - change (0 * a + dot (all_in i m) x = nth i x 0). rewrite (IH i x L). ring.
Qed.
Theorem C151_infimum : forall i lam tau, setting -> one_leads i -> (i < d)%nat ->
  exists v, value lam (all_in i d) tau v /\
    (forall raw v', length raw = d -> value lam (softmax raw) tau v' -> v < v') /\
    (forall delta, 0 < delta -> exists raw v', length raw = d /\ value lam (softmax raw) tau v' /\ v' < v + delta).
Proof.
  intros i lam tau St Hi Id. pose proof St as (Hb & Hw & Hr & He & Heta & Ha).
  exists (port cost rows rho eps p eta alpha lam (all_in i d) tau). assert (V : value lam (all_in i d) tau (port cost rows rho eps p eta alpha lam (all_in i d) tau)) by (apply value_iff; auto).
  split; [exact V|]. split.
  - intros raw v' Lr V'.
    destruct (smaller_everywhere vec cost displace lp lpr (risk_loss eta alpha (softmax raw) tau) (risk_loss eta alpha (all_in i d) tau) n rows rho lam eps p Hb Hr He) as (a & a' & E & E' & H).
    { intros r z Hin Hz. apply risk_better; [exact Heta|lra|]. rewrite all_in_dot by (apply (Hw r z Hin Hz)). apply softmax_below; [rewrite Lr; symmetry; apply (Hw r z Hin Hz)|apply (Hi r z Hin Hz)]. }
    unfold is_value in V, V'. rewrite V in E'. rewrite V' in E. injection E as ->. injection E' as ->. exact H.
  - intros delta Hdl. destruct (close_values lam (all_in i d) tau delta St (all_in_invested d i Id) Hdl) as (w' & a & a' & L & O & Va & Va' & C).
    exists (map ln w'), a'. rewrite (softmax_onto w' O), map_length. split; [exact L|]. split; [exact Va'|]. rewrite value_iff in Va, V by assumption. rewrite V, <- Va. exact C.
Qed.
End Port.
Print Assumptions C151_fixed.
Print Assumptions C151_joint.
Print Assumptions C151_reached_iff.
Print Assumptions C151_always_lower.
Print Assumptions C151_no_minimiser.
Print Assumptions C151_infimum.

(* ---------- the module on tensors ---------- *)
(* Adding a number to all raw weights changes nothing in the module, for all tensors, so best parameters are never unique. *)
Theorem C151_shift : forall eta alpha raw tau k, raw <> [] -> k <> 0 ->
  map (fun a => a + k) raw <> raw /\
  forall w c s grads cfg xi y zeta zl,
    t_compute_dual (pfd_call eta alpha (map (fun a => a + k) raw) tau) w c s grads cfg xi y zeta zl = t_compute_dual (pfd_call eta alpha raw tau) w c s grads cfg xi y zeta zl.
Proof.
  intros eta alpha raw tau k N K. split.
  - destruct raw as [|a raw]; [congruence|]. intros E. injection E as E _. lra.
  - intros w c s grads cfg xi y zeta zl. replace (pfd_call eta alpha (map (fun a => a + k) raw) tau) with (pfd_call eta alpha raw tau); [reflexivity|].
    apply functional_extensionality. intros t. apply functional_extensionality. intros o. unfold pfd_call, pf_forward. rewrite softmax_shift, map_length. reflexivity.
Qed.
Print Assumptions C151_shift.

Theorem C151_tensor : forall eta alpha tau w s grads q power n d xs zs rho lam eps i raw t,
  regularised_by w 0 -> w_has_labels w = false -> w_reduce w = true -> widths d xs -> is_grid n (length xs) d zs -> xs <> [] -> zs <> [] ->
  0 < rho -> 0 < eps -> 0 <= eta -> 0 < alpha <= 1 -> (forall j z, (j < length xs)%nat -> In z zs -> leads i (nth j z [])) -> length raw = d -> 0 < t ->
  let value raw := t_compute_dual (pfd_call eta alpha raw tau) w (TNC q power) s grads (cfg "mean" rho lam eps power)
                     (Tensor.batch [length xs] d xs) None (grid n (length xs) d zs) None in
  exists v v', value raw = Ok (Scalar (Fin v)) /\ value (bump i t raw) = Ok (Scalar (Fin v')) /\ v' < v.
Proof.
  intros eta alpha tau w s grads q power n d xs zs rho lam eps i raw t Rg Hl Hrd W G Nx Nz Hr He Heta Ha Hi Lr T value.
  assert (Hn : (0 < n)%nat) by (destruct G as [<- _]; destruct zs; [congruence|cbn; lia]).
  set (disp := fun _ : list (row vec) => @Raise (list (vec * list vec)) ValueError).
  assert (V : forall raw', length raw' = d -> value raw' = compute_dual vec (risk_loss eta alpha (softmax raw') tau) (nc_value q power) disp (fun _ _ => 0) (fun _ _ _ => 0) (cfg "mean" rho lam eps power) n (point_rows [] xs xs zs)).
  { intros raw' Lr'. unfold value. rewrite <- Lr' in W, G |- *. apply C112_unlabelled; auto.
    apply (samplewise_ext _ _ (fun x => rmean [risk_loss eta alpha (softmax raw') tau x] + 0)).
    - intros x _. rewrite rmean1. ring.
    - apply (C112_losses_unlabelled _ _ _ _ 1 (fun x => [risk_loss eta alpha (softmax raw') tau x])); auto. apply pf_rowwise. }
  rewrite !V by (rewrite ?bump_length; exact Lr).
  assert (Mem : forall r z, In r (point_rows [] xs xs zs) -> In z (r_zeta r) -> exists j zz, (j < length xs)%nat /\ In zz zs /\ z = nth j zz []).
  { intros r z Hin Hz. unfold point_rows in Hin. apply in_map_iff in Hin as (j & <- & Hj). apply in_seq in Hj. cbn [r_zeta] in Hz. apply in_map_iff in Hz as (zz & <- & Hzz). exists j, zz. split; [lia|]. split; [exact Hzz|reflexivity]. }
  apply (C151_always_lower (nc_value q power) disp (fun _ _ => 0) (fun _ _ _ => 0) n d (point_rows [] xs xs zs) rho eps power eta alpha i lam raw tau t); try assumption.
  - split; [apply point_rows_batch; [exact Hn|exact Nx|apply G]|]. split; [|auto].
    intros r z Hin Hz. destruct (Mem r z Hin Hz) as (j & zz & Hj & Hzz & ->). destruct G as [_ F]. rewrite Forall_forall in F. destruct (F zz Hzz) as [Lz Wz]. unfold widths in Wz. rewrite Forall_forall in Wz. apply Wz, nth_In. lia.
  - intros r z Hin Hz. destruct (Mem r z Hin Hz) as (j & zz & Hj & Hzz & ->). apply Hi; assumption.
Qed.
Print Assumptions C151_tensor.

(* ---------- the property is false ---------- *)
Definition around (x : vec) (zs : list vec) : row vec := {| r_mean := x; r_xi := x; r_zeta := zs |}.
Definition two_assets : list (row vec) := [around [1; 2] [[1; 2]; [0; 3]]; around [0; 1] [[0; 1]; [-1; 5]]].
Lemma two_assets_setting rho eps eta alpha : 0 < rho -> 0 < eps -> 0 <= eta -> 0 < alpha <= 1 -> setting 2 2 two_assets rho eps eta alpha /\ one_leads two_assets 1.
Proof.
  intros. split.
  - split; [split; [lia|split; [discriminate|repeat constructor]]|]. split; [|auto].
    intros r z [<-|[<-|[]]] [<-|[<-|[]]]; reflexivity.
  - intros r z [<-|[<-|[]]] [<-|[<-|[]]]; (split; [cbn; lia|split; [repeat (apply Forall_cons; [cbn; lra|]); apply Forall_nil|apply Exists_cons_hd; cbn; lra]]).
Qed.
Theorem C151_refuted : exists rows : list (row vec), forall cost displace lp lpr rho eps p eta alpha, 0 < rho -> 0 < eps -> 0 <= eta -> 0 < alpha <= 1 ->
  let value lam w tau v := is_value (risk_loss eta alpha w tau) cost displace lp lpr 2 rows rho lam eps p v in
  (forall lam, exists w tau v, invested 2 w /\ value lam w tau v /\ forall w' tau' v', invested 2 w' -> value lam w' tau' v' -> v <= v') /\
  ~ (exists lam raw tau v, length raw = 2%nat /\ value lam (softmax raw) tau v /\ forall raw' v', length raw' = 2%nat -> value lam (softmax raw') tau v' -> v <= v').
Proof.
  exists two_assets. intros cost displace lp lpr rho eps p eta alpha Hr He Heta Ha value. destruct (two_assets_setting rho eps eta alpha Hr He Heta Ha) as [St Ld]. split.
  - intros lam. apply (C151_fixed cost displace lp lpr 2 2 two_assets rho eps p eta alpha lam St). lia.
  - apply (C151_no_minimiser cost displace lp lpr 2 2 two_assets rho eps p eta alpha 1 St Ld).
Qed.
Print Assumptions C151_refuted.

(* ---------- examples ---------- *)
Example C151_case : setting 2 2 two_assets 1 (1 / 2) (3 / 4) (1 / 10) /\ one_leads two_assets 1 /\ invested 2 [0; 1] /\ ~ long_only [0; 1].
Proof.
  destruct (two_assets_setting 1 (1 / 2) (3 / 4) (1 / 10)) as [A B]; try lra. split; [exact A|]. split; [exact B|]. split; [exact (all_in_invested 2 1 ltac:(lia))|].
  intros [F _]. pose proof (Forall_inv F) as Q. cbv beta in Q. lra.
Qed.
(* staying at the data costs nothing, so the budget condition holds *)
Example C151_joint_case : let cost := fun x z : vec => sqnorm (vsub x z) in let A := [[1; 0]; [1; 0]] in
  adversary 2 A two_assets /\ adv_mean cost A two_assets < Rpower 1 2.
Proof.
  cbv zeta. split.
  - split; [reflexivity|]. repeat (apply Forall_cons; [split; [reflexivity|split; [repeat (apply Forall_cons; [lra|]); constructor|cbn; lra]]|]). constructor.
  - replace (adv_mean _ _ _) with 0; [apply exp_pos|]. unfold adv_mean, rmean, sqnorm, dot, vsub. cbn. field.
Qed.
(* two assets with the same returns: every portfolio is best *)
Example C151_reached_case : let rows := [around [1; 1] [[1; 1]; [2; 2]]] in let cost := fun x z : vec => sqnorm (vsub x z) in
  let value w tau v := is_value (risk_loss 0 1 w tau) cost (fun _ => Raise ValueError) (fun _ _ => 0) (fun _ _ _ => 0) 2 rows 1 1 1 2 v in
  exists w tau v, length w = 2%nat /\ long_only w /\ value w tau v /\ forall w' tau' v', invested 2 w' -> value w' tau' v' -> v <= v'.
Proof.
  cbv zeta. set (rows := [around [1; 1] [[1; 1]; [2; 2]]]). set (cost := fun x z : vec => sqnorm (vsub x z)).
  assert (St : setting 2 2 rows 1 1 0 1).
  { split; [split; [lia|split; [discriminate|repeat constructor]]|]. split; [|lra]. intros r z [<-|[]] [<-|[<-|[]]]; reflexivity. }
  pose proof St as (Hb & _).
  assert (Same : forall w tau z, invested 2 w -> In z [[1; 1]; [2; 2]] -> risk_loss 0 1 w tau z = - nth 0 z 0).
  { intros w tau z (L & _ & S) Hz. destruct w as [|a [|b [|]]]; try discriminate. cbn in S. destruct Hz as [<-|[<-|[]]]; unfold risk_loss, dot; cbn; nra. }
  apply (C151_reached_iff cost (fun _ => Raise ValueError) (fun _ _ => 0) (fun _ _ _ => 0) 2 2 rows 1 1 2 0 1 1 St ltac:(lia)).
  exists [0; 0], 0, (port cost rows 1 1 2 0 1 1 (softmax [0; 0]) 0). split; [reflexivity|]. split; [apply value_iff; auto; lra|].
  intros raw' tau' v' Lr V'. rewrite value_iff in V' by (auto; lra). rewrite V'. unfold port.
  pose proof (objective_half vec cost 2 rows 1 1 2 (risk_loss 0 1 (softmax [0; 0]) 0) (risk_loss 0 1 (softmax raw') tau') 1 1 0 Hb ltac:(lra)) as Q.
  assert (Z : (1 - 1) * Rpower 1 2 = 0) by ring. rewrite Z, !Rplus_0_r in Q. apply Q. intros r z [<-|[]] Hz. cbn [r_zeta r_xi around] in *.
  rewrite (Same (softmax [0; 0]) 0 z (softmax_invested [0; 0] ltac:(discriminate)) Hz).
  assert (W : invested 2 (softmax raw')) by (rewrite <- Lr; apply softmax_invested; intros ->; discriminate). rewrite (Same _ tau' z W Hz). lra.
Qed.
Definition plain_module : wrapped := {| w_oop := true; w_has_labels := false; w_reduce := true; w_l2 := None; w_loss_params := []; w_transform_params := [] |}.
Example C151_tensor_case : exists v v',
  let value raw := t_compute_dual (pfd_call (1 / 2) (1 / 4) raw 0) plain_module (TNC (PFin 2) 2) (TPlain (Tensor.batch [1%nat] 2 [[1; 2]]) 1) (fun _ _ => Raise ValueError)
    (cfg "mean" 1 1 1 2) (Tensor.batch [1%nat] 2 [[1; 2]]) None (grid 2 1 2 [[[1; 2]]; [[0; 3]]]) None in
  value [0; 0] = Ok (Scalar (Fin v)) /\ value [0; 0 + 5] = Ok (Scalar (Fin v')) /\ v' < v.
Proof.
  apply (C151_tensor (1 / 2) (1 / 4) 0 plain_module (TPlain (Tensor.batch [1%nat] 2 [[1; 2]]) 1) (fun _ _ => Raise ValueError) (PFin 2) 2 2 2 [[1; 2]] [[[1; 2]]; [[0; 3]]] 1 1 1 1 [0; 0] 5); try reflexivity; try lra; try discriminate.
  - left. split; reflexivity.
  - repeat constructor.
  - split; [reflexivity|]. repeat (apply Forall_cons; [split; [reflexivity|repeat constructor]|]). constructor.
  - intros j z Hj Hz. cbn in Hj. assert (j = 0%nat) by lia. subst j.
    destruct Hz as [<-|[<-|[]]]; (split; [cbn; lia|split; [repeat (apply Forall_cons; [cbn; lra|]); apply Forall_nil|apply Exists_cons_hd; cbn; lra]]).
Qed.
