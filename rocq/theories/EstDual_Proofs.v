(* Proofs about the robust losses of the estimators. *)
From Coq Require Import Reals List Bool ZArith String Arith Lra Lia Sorted.
From Verif Require Import PyBase RList XReal Tensor Loss_Model Loss_Spec Loss_Proofs Costs_Model CostDecoder_Model OptCond_Model Samplers_Model Samplers_Spec Draws_Proofs Wrap_Model
  Wrap_Proofs Estim_Model Estim_Proofs Handover_Proofs Displace_Model ImpSamp_Model ImpSamp_Spec Dual_Model Dual_Spec Dual_Proofs TDual_Model TDual_Spec TDual_Proofs Props_Loss Props_TDual EstDual_Model EstDual_Spec.
Import ListNotations.
Local Open Scope R_scope.
Local Notation length := List.length.

(* ---------- costs ---------- *)
Lemma xeq_fin x r : xeq x (Fin r) = true -> x = Fin r.
Proof. destruct x; simpl; try discriminate. unfold Reqb. destruct (Req_EM_T _ _); [intros _; congruence|discriminate]. Qed.
Lemma xeq_pinf x : xeq x PInf = true -> x = PInf.
Proof. destruct x; simpl; try discriminate; reflexivity. Qed.
Lemma family_values p w f : family p w = Some f -> (exists q, nexp_of p = Some q) /\ exists r, w = Fin r.
Proof.
  unfold family. destruct (xeq w (Fin 1)) eqn:E1.
  - apply xeq_fin in E1. subst w. intros H. split; [|eauto]. destruct (xeq p (Fin 1)) eqn:A; [apply xeq_fin in A; subst p; simpl; eauto|].
    destruct (xeq p (Fin 2)) eqn:B; [apply xeq_fin in B; subst p; simpl; eauto|]. destruct (xeq p PInf) eqn:C; [apply xeq_pinf in C; subst p; simpl; eauto|discriminate].
  - destruct (xeq w (Fin 2)) eqn:E2; [|discriminate]. apply xeq_fin in E2. subst w. intros H. split; [|eauto].
    destruct (xeq p (Fin 2)) eqn:B; [apply xeq_fin in B; subst p; simpl; eauto|discriminate].
Qed.

Definition two_two (c : tcost) : Prop := c = TNC (PFin 2) 2 \/ exists k, c = TNLC (PFin 2) 2 k.
Lemma ge0_kap k : x_ge0 k = true -> exists q, kap_of k = Some q.
Proof. unfold x_ge0. destruct k; simpl; try discriminate; eauto. Qed.

(* the cost that reaches the robust loss is one of those of Costs_Model, and importance sampling is only on for the squared Euclidean ones *)
Lemma dualize_cost pf u d : dualize pf u = Ok d ->
  exists c, tcost_of (a_cost d) = Some c /\ (a_imp_samp d = true -> two_two c) /\
    (c_kind (a_cost d) = NC <-> exists p w, c = TNC p w) /\ scost_of (a_cost d) = match c with TNC _ _ => SNC (c_p (a_cost d)) (c_power (a_cost d)) | TNLC _ _ k => SNLC (c_p (a_cost d)) (c_power (a_cost d)) (match k with KFin r => Fin r | KInf => PInf end) end /\
    (exists f, family (c_p (a_cost d)) (c_power (a_cost d)) = Some f).
Proof.
  unfold dualize. destruct (parse_code_torch _ _ _ _ _ _) as [pc|]; simpl; [|discriminate]. unfold cost_from_parse_torch.
  destruct (String.eqb (p_id pc) "NC") eqn:EN; [|destruct (String.eqb (p_id pc) "NLC") eqn:EL; [|discriminate]].
  - unfold NormCost. cbn [bind].
    destruct (match u_labels u with Some _ => _ | None => _ end) as [s|] eqn:ES; cbn [bind]; [|discriminate]. intros H. injection H as <-. cbn [a_cost a_imp_samp c_kind c_p c_power c_kappa].
    assert (F : exists f, family (p_type pc) (p_power pc) = Some f).
    { destruct (u_labels u); [apply labeled_inv in ES; destruct ES as (f & _ & E & _)|apply nolabels_inv in ES; destruct ES as (f & E & _)]; exists f; exact E. }
    destruct F as [f F]. destruct (family_values _ _ _ F) as [[q Q] [r Rw]]. unfold tcost_of. cbn [c_kind c_p c_power c_kappa]. rewrite Q, Rw. exists (TNC q r). split; [reflexivity|].
    split; [|split; [|split; [|eauto]]].
    + intros I. unfold decide_on_impsamp, can_imp_samp in I. apply andb_true_iff in I. destruct I as [_ I]. apply andb_true_iff in I. destruct I as [I1 I2]. unfold x_is_two in *.
      apply xeq_fin in I1, I2. rewrite I2 in Q. injection Q as <-. assert (r = 2) by congruence. subst r. left. reflexivity.
    + split; [eauto|reflexivity].
    + unfold scost_of. simpl. rewrite ?Rw. reflexivity.
    + rewrite <- Rw. eauto.
  - unfold NormLabelCost, assert_. destruct (x_ge0 (p_kappa pc)) eqn:EK; [|discriminate]. cbn [bind].
    destruct (match u_labels u with Some _ => _ | None => _ end) as [s|] eqn:ES; cbn [bind]; [|discriminate]. intros H. injection H as <-. cbn [a_cost a_imp_samp c_kind c_p c_power c_kappa].
    assert (F : exists f, family (p_type pc) (p_power pc) = Some f).
    { destruct (u_labels u); [apply labeled_inv in ES; destruct ES as (f & _ & E & _)|apply nolabels_inv in ES; destruct ES as (f & E & _)]; exists f; exact E. }
    destruct F as [f F]. destruct (family_values _ _ _ F) as [[q Q] [r Rw]]. destruct (ge0_kap _ EK) as [kq KQ]. unfold tcost_of. cbn [c_kind c_p c_power c_kappa]. rewrite Q, Rw, KQ.
    exists (TNLC q r kq). split; [reflexivity|]. split; [|split; [|split]].
    + intros I. unfold decide_on_impsamp, can_imp_samp in I. apply andb_true_iff in I. destruct I as [_ I]. apply andb_true_iff in I. destruct I as [I1 I2]. unfold x_is_two in *.
      apply xeq_fin in I1, I2. rewrite I2 in Q. injection Q as <-. assert (r = 2) by congruence. subst r. right. eauto.
    + split; [discriminate|intros (? & ? & ?); discriminate].
    + unfold scost_of. simpl. destruct (p_kappa pc); simpl in KQ; try discriminate; injection KQ as <-; reflexivity.
    + rewrite <- Rw. eauto.
Qed.

(* ---------- penalties ---------- *)
Lemma penalised_by d (lp tp : list (list R)) l2 : a_l2reg d = Some l2 -> lp ++ tp <> [] -> regularised_by (wrapped_of d lp tp) (penalty l2 (List.concat (lp ++ tp))).
Proof.
  intros E N. unfold regularised_by, wrapped_of. cbn [w_l2 w_oop w_loss_params w_transform_params]. rewrite E. unfold l2reg_of, penalty, Rleb.
  destruct (Rle_dec l2 0) as [H|H].
  - left. split; [reflexivity|]. rewrite Rmax_left by lra. lra.
  - right. exists l2, (lp ++ tp). rewrite Rmax_right by lra. repeat split; auto.
Qed.
Lemma unpenalised d lp tp : a_l2reg d = None \/ a_l2reg d = Some 0 -> regularised_by (wrapped_of d lp tp) 0.
Proof.
  intros E. left. unfold wrapped_of. cbn [w_l2]. split; [|reflexivity]. destruct E as [-> | ->]; [reflexivity|]. unfold l2reg_of, Rleb. destruct (Rle_dec 0 0); [reflexivity|lra].
Qed.

(* ---------- displaced samples ---------- *)
Lemma nth_map2 {A B C} (f : A -> B -> C) (da : A) (db : B) (dc : C) : forall xs ys j, (j < length xs)%nat -> (j < length ys)%nat ->
  nth j (map2 f xs ys) dc = f (nth j xs da) (nth j ys db).
Proof. induction xs as [|x xs IH]; intros [|y ys] [|j] H1 H2; simpl in *; try lia; [reflexivity|]. apply IH; lia. Qed.
Lemma displaced_nth (step : vec -> vec) (G : list vec) n m k zs : is_grid n m k zs -> length G = m -> forall z j, In z zs -> (j < m)%nat ->
  nth j (map2 (fun v g => vadd v (step g)) z G) (@nil R) = vadd (nth j z []) (step (nth j G [])).
Proof.
  intros [_ F] L z j Hz Hj. rewrite Forall_forall in F. destruct (F z Hz) as [E _]. unfold vec in *. apply (nth_map2 (fun v g => vadd v (step g)) (@nil R) (@nil R)); unfold vec; lia.
Qed.
Lemma map2_in_ext {A B C} (f g : A -> B -> C) : forall xs ys, (forall x y, In x xs -> In y ys -> f x y = g x y) -> map2 f xs ys = map2 g xs ys.
Proof. induction xs as [|x xs IH]; intros [|y ys] H; simpl; auto. rewrite H, IH; simpl; auto. intros; apply H; simpl; auto. Qed.

(* ---------- losses, row by row ---------- *)
Lemma column xs : widths 1 xs -> xs = map (fun v => [v]) (map (hd 0) xs).
Proof.
  intros W. rewrite map_map. rewrite <- (map_id xs) at 1. apply map_ext_in. intros y Hy. unfold widths in W. rewrite Forall_forall in W. specialize (W y Hy).
  destruct y as [|a [|]]; try discriminate. reflexivity.
Qed.
Lemma lr_rowwise wt b : rowwise_labelled (lr_call wt b) (length wt) 1 1 (fun x y => [(dot wt x + b - hd 0 y) * (dot wt x + b - hd 0 y)]).
Proof.
  intros xs ys W1 W2 L. assert (Ey : Tensor.batch [length xs] 1 ys = per_sample [length xs] (map (hd 0) ys)) by (unfold per_sample; rewrite <- column; auto).
  rewrite Ey. unfold lr_call. rewrite linear1_batch by (try exact W1; simpl; lia). cbn [bind]. unfold mse, per_sample, Tensor.batch. cbn [shp dat].
  destruct (list_eq_dec Nat.eq_dec ([length xs] ++ [1%nat]) ([length xs] ++ [1%nat])) as [_|N]; [|congruence]. do 2 f_equal.
  rewrite concat_singletons, (concat_map_single (fun x => dot x wt + b)), map2_map_l, map2_map_r.
  clear. revert ys. induction xs as [|x xs IH]; intros [|y ys]; simpl; auto. rewrite IH, (dot_comm x). reflexivity.
Qed.
Lemma wb_rowwise pos d : rowwise_labelled (wb_call pos) d 1 1 (fun x y => [hd 0 y * norm2 (vsub x pos)]).
Proof.
  intros xs ys W1 W2 L. assert (Ey : Tensor.batch [length xs] 1 ys = per_sample [length xs] (map (hd 0) ys)) by (unfold per_sample; rewrite <- column; auto).
  rewrite Ey. unfold wb_call. rewrite C59_weber by (try exact W1; rewrite map_length; symmetry; exact L). unfold per_sample. do 2 f_equal. rewrite map2_map_l.
  clear. revert ys. induction xs as [|x xs IH]; intros [|y ys]; simpl; auto. rewrite IH. reflexivity.
Qed.
Lemma pf_rowwise eta alpha raw tau : rowwise (pfd_call eta alpha raw tau) (length raw) 1 (fun x => [risk_loss eta alpha (softmax raw) tau x]).
Proof.
  intros xs W. unfold pfd_call. rewrite (pf_forward_batch eta alpha raw tau [length xs] xs W) by (simpl; lia). unfold per_sample. rewrite map_map. reflexivity.
Qed.
(* the multi-class loss: minus the log-probability that softmax regression gives to the target *)
Definition scores (wts : list vec) (bs : vec) (x : vec) : vec := map2 (fun w b => dot x w + b) wts bs.
Lemma mc_rowwise wts bs d : length bs = length wts ->
  rowwise_flat_labelled (mc_call wts bs d) d (length wts) (fun x y => - rsum (map2 (fun s t => (s - ln (rsum (map exp (scores wts bs x)))) * t) (scores wts bs x) y)).
Proof.
  intros Lb xs ys W1 W2 L.
  assert (Es : linear wts bs d (Tensor.batch [length xs] d xs) = Ok (Tensor.batch [length xs] (length wts) (map (scores wts bs) xs))).
  { unfold linear. unfold Tensor.batch at 1. cbn [shp]. rewrite last_snoc, Nat.eqb_refl, (trows_batch [length xs] d xs W1) by (simpl; lia). reflexivity. }
  unfold mc_call. rewrite Es. cbn [bind]. unfold cross_entropy.
  destruct (list_eq_dec Nat.eq_dec (shp (Tensor.batch [length xs] (length wts) (map (scores wts bs) xs))) (shp (Tensor.batch [length xs] (length wts) ys))) as [_|N]; [|elim N; reflexivity].
  assert (Ws : widths (length wts) (map (scores wts bs) xs)).
  { unfold widths. apply Forall_forall. intros v Hv. apply in_map_iff in Hv. destruct Hv as (x & <- & _). unfold scores. rewrite map2_length by (symmetry; exact Lb). reflexivity. }
  rewrite (trows_batch [length xs] (length wts) (map (scores wts bs) xs) Ws) by (unfold vec in *; rewrite ?map_length; simpl; lia).
  rewrite (trows_batch [length xs] (length wts) ys W2) by (unfold vec in *; rewrite ?map_length; simpl; lia). cbn [Tensor.batch shp app]. do 2 f_equal. rewrite map2_map_l.
  apply map2_in_ext. intros x y _ _. unfold log_softmax. rewrite map2_map_l. reflexivity.
Qed.

(* ---------- the robust losses ---------- *)
Lemma dual_of_plain d c e lam : a_reduction d = None -> a_imp_samp d = false -> dual_of d (tc_power c) e lam = cfg "mean" (a_rho d) lam e (tc_power c).
Proof. intros E I. unfold dual_of, cfg. rewrite E, I. reflexivity. Qed.
Lemma dual_of_imp d e lam : a_reduction d = None -> a_imp_samp d = true -> dual_of d 2 e lam = imp_on (a_rho d) lam e 2.
Proof. intros E I. unfold dual_of, imp_on. rewrite E, I. reflexivity. Qed.

(* What it means for the robust loss d to be, for the per-sample loss L on the data (xs, ys) with radius rho, the soft robust objective:
   - without importance sampling, on the given samples;
   - with it, on the samples moved along the gradients (kp is the weight of the labels in the cost);
   - with it, on the given samples again whenever a gradient vanishes. *)
Definition trains_labelled (d : dual_args) (loss : Tensor.tensor -> option Tensor.tensor -> Result Tensor.tensor) (w : wrapped) (k kl : nat) (L : vec -> vec -> R) (xs ys : list vec) (rho : R) : Prop :=
  exists c, tcost_of (a_cost d) = Some c /\
  forall n zs zls e lam grads, is_grid n (List.length xs) k zs -> is_grid n (List.length xs) kl zls -> zs <> [] -> a_epsilon d = Fin e -> e <> 0 ->
  let value s := t_compute_dual loss w c s grads (dual_of d (tc_power c) e lam) (Tensor.batch [List.length xs] k xs) (Some (Tensor.batch [List.length xs] kl ys))
                   (grid n (List.length xs) k zs) (Some (grid n (List.length xs) kl zls)) in
  let objective zs zls := Ok (Scalar (Fin (robust_labelled (pt_cost c) (tc_power c) rho e lam L xs ys zs zls))) in
  (a_imp_samp d = false -> forall s, value s = objective zs zls) /\
  (a_imp_samp d = true -> forall s kp G GL, tsampler_of d k kl = Some s -> c_kappa (a_cost d) = Some (Fin kp) -> kp <> 0 -> lam <> 0 ->
     grads (Tensor.batch [List.length xs] k xs) (Some (Tensor.batch [List.length xs] kl ys)) = Ok (map (map Fin) G, Some (map (map Fin) GL)) ->
     List.length G = List.length xs -> widths k G -> Forall (Exists (fun a => a <> 0)) G -> List.length GL = List.length xs -> widths kl GL -> Forall (Exists (fun a => a <> 0)) GL ->
     value s = objective (displaced (shift lam) G zs) (displaced (fun g => vscal (/ kp) (shift lam g)) GL zls)) /\
  (a_imp_samp d = true -> forall s G gl, tsampler_of d k kl = Some s ->
     grads (Tensor.batch [List.length xs] k xs) (Some (Tensor.batch [List.length xs] kl ys)) = Ok (G, gl) -> vanishes lam G \/ (exists l, gl = Some l /\ vanishes lam l) ->
     value s = objective zs zls).

Section Labelled.
Variables (pf : string -> option xr) (u : user_args) (d0 d : dual_args) (loss : Tensor.tensor -> option Tensor.tensor -> Result Tensor.tensor) (w : wrapped) (k kl : nat) (L : vec -> vec -> R).
Variables (xs ys : list vec) (rho : R).
Hypothesis Hd : dualize pf u = Ok d0.
Hypothesis Hc : a_cost d = a_cost d0.
Hypothesis Hi : a_imp_samp d = a_imp_samp d0.
Hypothesis Hs : a_sampler d = a_sampler d0.
Hypothesis Hr : a_rho d = rho.
Hypothesis Hred : a_reduction d = None.
Hypothesis Hxi : u_xi u = xs.
Hypothesis Hy : u_labels u = Some ys.
Hypothesis HL : samplewise_labelled (w_value loss w) k kl L.
Hypothesis W : widths k xs.
Hypothesis W' : widths kl ys.
Hypothesis E : length ys = length xs.
Hypothesis Nx : xs <> [].

Lemma labelled_sampler c s : tcost_of (a_cost d) = Some c -> two_two c -> tsampler_of d k kl = Some s ->
  exists kp sx sy, c = TNLC (PFin 2) 2 kp /\ s = TLabelled (Tensor.batch [length xs] k xs) sx (Tensor.batch [length xs] kl ys) sy.
Proof.
  intros Ec Tc Es. destruct (dualize_cost pf u d0 Hd) as (c' & Ec' & _ & _ & Sc & _). rewrite Hc, Ec' in Ec. injection Ec as <-.
  unfold tsampler_of in Es. rewrite Hs in Es. unfold dualize in Hd. rewrite Hxi, Hy in Hd.
  destruct (parse_code_torch _ _ _ _ _ _) as [pc|]; simpl in Hd; [|discriminate]. destruct (cost_from_parse_torch _ _ _) as [cc|]; simpl in Hd; [|discriminate].
  match type of Hd with (do s <- ?x; _) = _ => destruct x as [cs|] eqn:EL end; simpl in Hd; [|discriminate]. injection Hd as <-. cbn [a_cost a_sampler] in *.
  apply labeled_inv in EL. destruct EL as (f & l & Ff & _ & Ed & El & Ecl). rewrite Ed, Ecl in Es. rewrite Sc in El.
  destruct Tc as [-> | [kp ->]].
  - cbn [sampler_labels] in El. injection El as <-. destruct f; discriminate.
  - exists kp. destruct f; [|discriminate]. destruct l as [fl ll sl|]; [|discriminate]. destruct fl; try discriminate. destruct sl as [ls| | |]; try discriminate. injection Es as <-.
    assert (ll = ys) as ->.
    { unfold sampler_labels in El. destruct (xeq _ PInf); [discriminate|]. match type of El with match ?b with _ => _ end = _ => destruct b end; [|discriminate]. unfold loc_scale in El.
            match type of El with (do d <- (if ?b then _ else _); _) = _ => destruct b end; cbn [bind] in El; [|discriminate]. injection El as _ <- _. reflexivity. }
    eexists _, _. split; [reflexivity|]. unfold vec in *. rewrite E. reflexivity.
Qed.

Lemma gaussian_sampler kp : tcost_of (a_cost d) = Some (TNLC (PFin 2) 2 (KFin kp)) -> exists s, tsampler_of d k kl = Some s.
Proof.
  clear Hi W E Nx W' HL Hred Hr. intros Ec. destruct (dualize_cost pf u d0 Hd) as (c' & Ec' & _ & _ & Sc & _). rewrite Hc, Ec' in Ec. injection Ec as ->.
  unfold tsampler_of. rewrite Hs. unfold dualize in Hd. rewrite Hxi, Hy in Hd.
  destruct (parse_code_torch _ _ _ _ _ _) as [pc|]; simpl in Hd; [|discriminate]. destruct (cost_from_parse_torch _ _ _) as [cc|]; simpl in Hd; [|discriminate].
  match type of Hd with (do s <- ?x; _) = _ => destruct x as [cs|] eqn:EL end; simpl in Hd; [|discriminate]. injection Hd as <-. cbn [a_cost a_sampler] in *.
  assert (Pp : c_p cc = Fin 2 /\ c_power cc = Fin 2).
  { unfold tcost_of in Ec'. destruct (c_p cc) as [q| | |]; cbn [nexp_of] in Ec'; try discriminate; destruct (c_power cc) as [r| | |]; try discriminate; destruct (c_kind cc), (c_kappa cc) as [kk|]; try discriminate;
      destruct (kap_of kk); try discriminate; injection Ec' as E1 E2 _; subst; split; congruence. }
  destruct Pp as [P1 P2]. rewrite P1, P2 in Sc. assert (F2 : family (Fin 2) (Fin 2) = Some FNormal).
  { unfold family, xeq, Reqb. destruct (Req_EM_T 2 1); [lra|]. destruct (Req_EM_T 2 2); [reflexivity|lra]. }
  apply labeled_inv in EL. destruct EL as (f & l & Ff & _ & Ed & El & Ecl). rewrite Ed, Ecl. rewrite Sc in El, Ff. cbn [sc_p sc_power] in Ff. rewrite F2 in Ff. injection Ff as <-.
  unfold sampler_labels in El. cbn [xeq] in El. rewrite F2 in El. unfold Reqb in El. destruct (Req_EM_T 2 1); [lra|]. unfold loc_scale in El.
  match type of El with (do d <- (if ?b then _ else _); _) = _ => destruct b end; cbn [bind] in El; [|discriminate]. injection El as <-. eauto.
Qed.

Lemma labelled_trains : 0 < rho -> trains_labelled d loss w k kl L xs ys rho.
Proof.
  intros Hrho. destruct (dualize_cost pf u d0 Hd) as (c & Ec & Ti & _). rewrite <- Hc in Ec. rewrite <- Hi in Ti. exists c. split; [exact Ec|].
  intros n zs zls e lam grads Gz Gl Nz Ee Ne value objective. subst value objective. cbv beta. split; [|split].
  - intros I s. rewrite (dual_of_plain d c e lam Hred I), Hr. exact (C112_value_labelled loss w s grads c k kl L n xs ys zs zls rho lam e HL W W' E Gz Gl Nx Nz Hrho Ne).
  - intros I s kp G GL Es Ek Nk Nl Hg LG WG FG LGL WGL FGL. pose proof (Ti I) as T. destruct (labelled_sampler c s Ec T Es) as (kq & sx & sy & -> & ->).
    assert (kq = KFin kp) as ->.
    { unfold tcost_of in Ec. destruct (nexp_of _); [|discriminate]. destruct (c_power _); try discriminate. destruct (c_kind _); [discriminate|]. rewrite Ek in Ec. cbn [kap_of] in Ec. congruence. }
    cbn [tc_power]. rewrite (dual_of_imp d e lam Hred I), Hr.
    refine (eq_trans (C112_importance_labelled loss w (TNLC (PFin 2) 2 (KFin kp)) grads sx sy k kl L n xs ys zs zls G GL rho lam e _ HL W W' E Gz Gl Nx Nz Hrho Ne Nl Hg LG WG FG LGL WGL FGL) _).
    + right. exists (KFin kp). split; [reflexivity|congruence].
    + unfold robust_labelled. do 5 f_equal. apply map_ext_in. intros j Hj. apply in_seq in Hj. do 4 f_equal. unfold displaced. rewrite map2_map_l, map2_map_r.
      apply map2_in_ext. intros z zl Hz Hzl. cbv zeta.
      pose proof (displaced_nth (shift lam) G n (length xs) k zs Gz LG z j Hz ltac:(lia)) as N1.
      pose proof (displaced_nth (fun g => vscal (/ kp) (shift lam g)) GL n (length xs) kl zls Gl LGL zl j Hzl ltac:(lia)) as N2.
      unfold vec in *. cbv beta in N2. rewrite N1, N2.
      assert (relabel (TNLC (PFin 2) 2 (KFin kp)) lam (nth j zl []) (nth j GL []) = vadd (nth j zl []) (vscal (/ kp) (shift lam (nth j GL [])))) as ->; [|reflexivity].
      unfold relabel, shift. f_equal. unfold vscal. rewrite map_map. apply map_ext. intros a. unfold Rdiv. ring.
  - intros I s G gl Es Hg Hv. pose proof (Ti I) as T. destruct (labelled_sampler c s Ec T Es) as (kq & sx & sy & -> & ->).
    cbn [tc_power]. rewrite (dual_of_imp d e lam Hred I), Hr.
    refine (eq_trans (C112_importance_off_labelled loss w (TNLC (PFin 2) 2 kq) grads sx sy k kl L n xs ys zs zls G gl rho lam e HL W W' E Gz Gl Nx Nz Hrho Ne Hg Hv) _).
    exact (C112_value_labelled loss w _ grads (TNLC (PFin 2) 2 kq) k kl L n xs ys zs zls rho lam e HL W W' E Gz Gl Nx Nz Hrho Ne).
Qed.
End Labelled.

(* The same without labels: the samples moved by importance sampling are weighted by the ratio of the densities of the sampler centred
   at the data and at the moved data. A cost on labels cannot be evaluated. *)
Definition trains (d : dual_args) (loss : Tensor.tensor -> option Tensor.tensor -> Result Tensor.tensor) (w : wrapped) (k : nat) (L : vec -> R) (xs : list vec) (rho : R) : Prop :=
  exists c, tcost_of (a_cost d) = Some c /\
  forall n zs e lam grads, is_grid n (List.length xs) k zs -> zs <> [] -> a_epsilon d = Fin e -> e <> 0 ->
  let value s := t_compute_dual loss w c s grads (dual_of d (tc_power c) e lam) (Tensor.batch [List.length xs] k xs) None (grid n (List.length xs) k zs) None in
  let cost x z := pt_cost c (x, []) (z, []) in
  let objective := Ok (Scalar (Fin (robust cost (tc_power c) rho e lam L xs zs))) in
  (c_kind (a_cost d) = NC ->
    (a_imp_samp d = false -> forall s, value s = objective) /\
    (a_imp_samp d = true -> forall s sc G, tsampler_of d k 1 = Some s -> cs_data (a_sampler d) = LocScale FNormal xs (Fin sc) -> lam <> 0 ->
       grads (Tensor.batch [List.length xs] k xs) None = Ok (map (map Fin) G, None) ->
       List.length G = List.length xs -> widths k G -> Forall (Exists (fun a => a <> 0)) G ->
       value s = Ok (Scalar (Fin (robust_weighted cost (tc_power c) rho e lam L
                   (fun j x z => gauss_vec sc x z / moved_gauss sc x (shift lam (nth j G [])) z) xs (displaced (shift lam) G zs))))) /\
    (a_imp_samp d = true -> forall s G, tsampler_of d k 1 = Some s -> grads (Tensor.batch [List.length xs] k xs) None = Ok (G, None) -> vanishes lam G -> value s = objective)) /\
  (c_kind (a_cost d) = NLC -> a_imp_samp d = false -> forall s, value s = Raise AssertionError).

Section Unlabelled.
Variables (pf : string -> option xr) (u : user_args) (d0 d : dual_args) (loss : Tensor.tensor -> option Tensor.tensor -> Result Tensor.tensor) (w : wrapped) (k : nat) (L : vec -> R).
Variables (xs : list vec) (rho : R).
Hypothesis Hd : dualize pf u = Ok d0.
Hypothesis Hc : a_cost d = a_cost d0.
Hypothesis Hi : a_imp_samp d = a_imp_samp d0.
Hypothesis Hs : a_sampler d = a_sampler d0.
Hypothesis Hr : a_rho d = rho.
Hypothesis Hred : a_reduction d = None.
Hypothesis Hxi : u_xi u = xs.
Hypothesis Hy : u_labels u = None.
Hypothesis HL : samplewise (w_value loss w) k L.
Hypothesis W : widths k xs.
Hypothesis Nx : xs <> [].

Lemma unlabelled_sampler s : tsampler_of d k 1 = Some s ->
  exists sc, 0 < sc /\ cs_data (a_sampler d) = LocScale FNormal xs (Fin sc) /\ s = TPlain (Tensor.batch [length xs] k xs) sc.
Proof.
  intros Es. unfold tsampler_of in Es. rewrite Hs in *. unfold dualize in Hd. rewrite Hxi, Hy in Hd.
  destruct (parse_code_torch _ _ _ _ _ _) as [pc|]; simpl in Hd; [|discriminate]. destruct (cost_from_parse_torch _ _ _) as [cc|]; simpl in Hd; [|discriminate].
  match type of Hd with (do s <- ?x; _) = _ => destruct x as [cs|] eqn:EL end; simpl in Hd; [|discriminate]. injection Hd as <-. cbn [a_sampler] in *.
  apply nolabels_inv in EL. destruct EL as (f & _ & P & Ed & El). rewrite Ed, El in *. destruct f; [|discriminate]. injection Es as <-. eauto.
Qed.

Lemma unlabelled_trains : 0 < rho -> trains d loss w k L xs rho.
Proof.
  intros Hrho. destruct (dualize_cost pf u d0 Hd) as (c & Ec & Ti & Tk & _). rewrite <- Hc in Ec, Tk. rewrite <- Hi in Ti. exists c. split; [exact Ec|].
  intros n zs e lam grads Gz Nz Ee Ne value cost objective. subst value objective. cbv beta. split.
  - intros K. apply Tk in K. destruct K as (p & pw & ->). cbn [tc_power]. split; [|split].
    + intros I s. rewrite (dual_of_plain d (TNC p pw) e lam Hred I : dual_of d pw e lam = _), Hr.
      refine (eq_trans (C112_value_unlabelled loss w s grads p pw k L n xs zs rho lam e HL W Gz Nx Nz Hrho Ne) _). reflexivity.
    + intros I s sc G Es Ed Nl Hg LG WG FG. destruct (unlabelled_sampler s Es) as (sc' & P & Ed' & ->). assert (sc' = sc) as -> by congruence.
      destruct (Ti I) as [T|[kk T]]; [|discriminate]. injection T as -> ->. rewrite (dual_of_imp d e lam Hred I), Hr.
      refine (eq_trans (C112_importance loss w grads sc k L n xs zs G rho lam e HL W Gz Nx Nz Hrho Ne Nl P Hg LG WG FG) _).
      unfold robust_weighted. do 5 f_equal. apply map_ext_in. intros j Hj. apply in_seq in Hj. do 3 f_equal. unfold displaced. rewrite map_map.
      apply map_ext_in. intros z Hz. cbv zeta. pose proof (displaced_nth (shift lam) G n (length xs) k zs Gz LG z j Hz ltac:(lia)) as N1.
      unfold vec in *. rewrite N1. reflexivity.
    + intros I s G Es Hg Hv. destruct (unlabelled_sampler s Es) as (sc & P & Ed & ->). destruct (Ti I) as [T|[kk T]]; [|discriminate]. injection T as -> ->.
      rewrite (dual_of_imp d e lam Hred I), Hr.
      refine (eq_trans (C112_importance_off loss w grads sc (PFin 2) 2 k L n xs zs G rho lam e HL W Gz Nx Nz Hrho Ne Hg Hv) _).
      refine (eq_trans (C112_value_unlabelled loss w _ grads (PFin 2) 2 k L n xs zs rho lam e HL W Gz Nx Nz Hrho Ne) _). reflexivity.
  - intros K I s. destruct c as [p pw|p pw kp]; [destruct Tk as [_ Tk]; rewrite Tk in K by eauto; discriminate|].
    apply (C112_labels_missing loss w s grads p pw kp k L (dual_of d pw e lam) n xs zs HL Gz); unfold dual_of; cbn; auto.
    rewrite Hr. unfold Rltb. destruct (Rlt_dec 0 rho); [reflexivity|contradiction].
Qed.
End Unlabelled.

(* ---------- from the estimators to dualize ---------- *)
Lemma nv_dualized pf a X d t : nv_dispatch pf a X = Ok (FTorch d t) -> exists u, dualize pf u = Ok d /\ u_xi u = map (fun r => [rmean r]) X /\ u_labels u = None.
Proof.
  unfold nv_dispatch. destruct (decode_cost pf (nv_cost a)); simpl; [|discriminate]. destruct (String.eqb (nv_solver_name a) "entropic"); [discriminate|].
  destruct (contains "torch" (nv_solver_name a)); [|destruct (String.eqb (nv_solver_name a) "dedicated"); discriminate].
  destruct (dualize pf _) eqn:E; simpl; [|discriminate]. intros H. injection H as <- <-. eexists. split; [exact E|]. split; reflexivity.
Qed.
Lemma pf_dualized pf a X d t : pf_dispatch pf a X = Ok (FTorch d t) -> exists u, dualize pf u = Ok d /\ u_xi u = X /\ u_labels u = None.
Proof.
  unfold pf_dispatch. destruct (decode_cost pf (pf_cost a)); simpl; [|discriminate]. destruct (negb (Nat.eqb _ _)); [discriminate|].
  destruct (String.eqb (pf_solver_name a) "entropic"); [discriminate|]. destruct (String.eqb (pf_solver_name a) "dedicated"); [discriminate|].
  destruct (contains "torch" (pf_solver_name a)); [|discriminate].
  destruct (dualize pf _) eqn:E; simpl; [|discriminate]. intros H. injection H as <- <-. eexists. split; [exact E|]. split; reflexivity.
Qed.
Lemma wb_dualized pf a X y d t : wb_dispatch pf a X y = Ok (FTorch d t) -> exists u d0, dualize pf u = Ok d0 /\ u_xi u = X /\ u_labels u = Some (map (fun v => [v]) y) /\
  a_cost d = a_cost d0 /\ a_imp_samp d = a_imp_samp d0 /\ a_sampler d = a_sampler d0.
Proof.
  unfold wb_dispatch. destruct (String.eqb (wb_solver_name a) "entropic"); [discriminate|]. destruct (contains "torch" (wb_solver_name a)); [|discriminate].
  destruct (dualize pf _) as [d0|] eqn:E; simpl; [|discriminate]. intros H. injection H as <- <-. eexists _, d0. split; [exact E|]. split; [reflexivity|]. split; [reflexivity|].
  destruct (wb_n_iter a); repeat split.
Qed.
Lemma lr_dualized pf a X y d t : lr_dispatch pf a X y = Ok (FTorch d t) -> exists u, dualize pf u = Ok d /\ u_xi u = X /\ u_labels u = Some (map (fun v => [v]) y).
Proof.
  unfold lr_dispatch. destruct (decode_cost pf (lr_cost a)); simpl; [|discriminate]. destruct (String.eqb (lr_solver_name a) "entropic"); [discriminate|].
  destruct (contains "torch" (lr_solver_name a)); [|destruct (String.eqb (lr_solver_name a) "dedicated"); discriminate].
  destruct (dualize pf _) eqn:E; simpl; [|discriminate]. intros H. injection H as <- <-. eexists. split; [exact E|]. split; reflexivity.
Qed.
Lemma lg_dualized pf a X y d t ts : lg_dispatch pf a X y = Ok (FTorch d t) -> lg_targets y = Ok ts -> exists u, dualize pf u = Ok d /\ u_xi u = X /\ u_labels u = Some ts.
Proof.
  intros H T. revert H. unfold lg_dispatch. rewrite T. simpl. destruct (decode_cost pf (lg_cost a)); simpl; [|discriminate].
  destruct (String.eqb (lg_solver_name a) "entropic"); [discriminate|].
  destruct (String.eqb (lg_solver_name a) "dedicated"); [match goal with |- context [if ?c then Raise _ else Ok _] => destruct c end; discriminate|].
  destruct (contains "torch" (lg_solver_name a)); [|discriminate].
  destruct (dualize pf _) eqn:E; simpl; [|discriminate]. intros H. injection H as <- <-. eexists. split; [exact E|]. split; reflexivity.
Qed.

(* ---------- small facts ---------- *)
Lemma rmean1 v : rmean [v] = v.
Proof. unfold rmean. simpl. field. Qed.
Lemma samplewise_labelled_ext value k kl L L' : (forall x y, length x = k -> length y = kl -> L x y = L' x y) -> samplewise_labelled value k kl L -> samplewise_labelled value k kl L'.
Proof.
  intros H S n m zs zls G G'. rewrite (S n m zs zls G G'). do 2 f_equal. destruct G as [_ F], G' as [_ F']. rewrite Forall_forall in F, F'.
  apply map2_in_ext. intros z zl Hz Hzl. apply map2_in_ext. intros x y Hx Hy. destruct (F z Hz) as [_ Wz], (F' zl Hzl) as [_ Wl]. unfold widths in *. rewrite Forall_forall in Wz, Wl. apply H; auto.
Qed.
Lemma samplewise_ext value k L L' : (forall x, length x = k -> L x = L' x) -> samplewise value k L -> samplewise value k L'.
Proof.
  intros H S n m zs G. rewrite (S n m zs G). do 2 f_equal. destruct G as [_ F]. rewrite Forall_forall in F.
  apply map_ext_in. intros z Hz. apply map_ext_in. intros x Hx. destruct (F z Hz) as [_ Wz]. unfold widths in *. rewrite Forall_forall in Wz. apply H; auto.
Qed.
Lemma widths_column y : widths 1 (map (fun v : R => [v]) y).
Proof. induction y; constructor; [reflexivity|assumption]. Qed.
Lemma width_of k X : widths k X -> X <> [] -> width X = k.
Proof. destruct X as [|x X]; [congruence|]. intros W _. apply (Forall_inv W). Qed.
Lemma sorted_unique : forall l m : list Z, StronglySorted Z.lt l -> StronglySorted Z.lt m -> (forall v, In v l <-> In v m) -> l = m.
Proof.
  induction l as [|a l IH]; intros [|b m] S1 S2 H.
  - reflexivity.
  - destruct (proj2 (H b)); simpl; auto.
  - destruct (proj1 (H a)); simpl; auto.
  - inversion S1 as [|? ? S1' F1]. inversion S2 as [|? ? S2' F2]. subst. rewrite Forall_forall in F1, F2.
    assert (a = b) as ->.
    { destruct (proj1 (H a) (or_introl eq_refl)) as [->|I]; [reflexivity|]. destruct (proj2 (H b) (or_introl eq_refl)) as [->|J]; [reflexivity|]. specialize (F1 b J). specialize (F2 a I). lia. }
    f_equal. apply IH; auto. intros v. split; intros I.
    + destruct (proj1 (H v) (or_intror I)) as [<-|]; [specialize (F1 b I); lia|assumption].
    + destruct (proj2 (H v) (or_intror I)) as [<-|]; [specialize (F2 b I); lia|assumption].
Qed.
