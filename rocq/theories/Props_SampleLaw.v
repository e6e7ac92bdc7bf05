(* C117: what the average over samples says about the integral it stands for. *)
From Coq Require Import Reals List Bool Lra Lia Psatz String.
From Verif Require Import PyBase RList XReal LogMeanExp Dual_Model Dual_Spec Dual_Proofs ImpSamp_Model ImpSamp_Spec Props_Dual SampleLaw_Spec SampleLaw_Proofs.
Import ListNotations.
Local Open Scope R_scope.
Local Notation length := List.length.

Section C117.
Variable P X : Type.
Variable loss : P -> R.
Variable cost : P -> P -> R.
Variable displace : list (row P) -> Result (list (P * list P)).
Variable lp : P -> P -> R.
Variable lpr : P -> P -> P -> R.
Variable data : list (P * P).
Variable dflt : P.
Variable draw : X -> nat -> nat -> P.
Notation rows := (drawn_rows P X data dflt draw).
Notation cd := (compute_dual P loss cost displace lp lpr).
Notation xi := (point P data dflt).
(* what is averaged *)
Definition term (lam eps : R) (j : nat) (z : P) : R := exp ((loss z - lam * cost (xi j) z) / eps).

Lemma rows_ok is w : is <> [] -> data <> [] -> batch_ok (length is) (rows is w).
Proof.
  intros Hi Hd. split; [destruct is; [contradiction|cbn; lia]|]. split; [unfold drawn_rows; destruct data; [contradiction|discriminate]|].
  apply Forall_forall. intros r Hr. apply in_map_iff in Hr. destruct Hr as (j & <- & _). cbn. apply map_length.
Qed.
Lemma rows_value is w rho lam eps p : is <> [] -> data <> [] -> 0 < rho -> 0 < eps ->
  cd (cfg "mean" rho lam eps p) (length is) (rows is w)
  = Ok (Scalar (Fin (lam * Rpower rho p + rmean (map (fun j => eps * ln (rmean (map (fun i => term lam eps j (draw w j i)) is))) (seq 0 (length data)))))).
Proof.
  intros Hi Hd Hr He. rewrite cd_mean by (try apply rows_ok; assumption). do 3 f_equal. unfold objective. f_equal. unfold drawn_rows. rewrite map_map. f_equal. apply map_ext_in. intros j _.
  unfold soft, softmaximum, pen, lme, sumexp. cbn [r_xi r_zeta]. rewrite !map_map, !map_length. unfold rmean. rewrite map_length.
  assert (Hn : 0 < INR (length is)) by (apply lt_0_INR; destruct is; [contradiction|cbn; lia]).
  unfold Rdiv at 2. rewrite ln_mult, ln_Rinv; [reflexivity|exact Hn| |apply Rinv_0_lt_compat; exact Hn].
  apply rsum_pos; [apply map_neq_nil; exact Hi|]. apply Forall_map, Forall_forall. intros; apply exp_pos.
Qed.

(* Leaving out each of the n+1 samples in turn gives a smaller value on average. *)
Theorem C117_leave_one_out n w rho lam eps p : (0 < n)%nat -> data <> [] -> 0 < rho -> 0 < eps ->
  exists v vs, cd (cfg "mean" rho lam eps p) (S n) (rows (seq 0 (S n)) w) = Ok (Scalar (Fin v)) /\
    (forall k, (k <= n)%nat -> cd (cfg "mean" rho lam eps p) n (rows (without k n) w) = Ok (Scalar (Fin (vs k)))) /\ rmean (map vs (seq 0 (S n))) <= v.
Proof.
  intros Hn Hd Hr He. eexists _, (fun k => lam * Rpower rho p + rmean (map (fun j => eps * ln (rmean (map (fun i => term lam eps j (draw w j i)) (without k n)))) (seq 0 (length data)))).
  split; [rewrite <- (seq_length (S n) 0) at 1; apply rows_value; [discriminate|assumption..]|]. split.
  - intros k Hk. rewrite <- (without_length k n Hk) at 1. apply rows_value; try assumption. intros E. apply (f_equal (@List.length nat)) in E. rewrite without_length in E by exact Hk. cbn in E. lia.
  - rewrite rmean_map_plus, rmean_map_const by discriminate. apply Rplus_le_compat_l. rewrite rmean_swap. apply rmean_map_le. intros j _. rewrite rmean_map_scal. apply Rmult_le_compat_l; [lra|].
    rewrite (mean_without (fun i => term lam eps j (draw w j i)) n Hn). apply ln_mean; [discriminate|]. intros k Hk. apply in_seq in Hk. unfold rmean. rewrite map_length, without_length by lia.
    apply Rdiv_lt_0_compat; [|apply lt_0_INR; exact Hn]. apply rsum_pos.
    + apply map_neq_nil. intros E. apply (f_equal (@List.length nat)) in E. rewrite without_length in E by lia. cbn in E. lia.
    + apply Forall_map, Forall_forall. intros; apply exp_pos.
Qed.

Variable I : (X -> R) -> Prop.
Variable E : (X -> R) -> R.

(* The expected objective does not exceed the one with exact integrals, whatever the dependence between the samples. *)
Theorem C117_underestimates n rho lam eps p (V : X -> R) m : expectation I E -> (0 < n)%nat -> data <> [] -> 0 < rho -> 0 < eps ->
  (forall w, cd (cfg "mean" rho lam eps p) n (rows (seq 0 n) w) = Ok (Scalar (Fin (V w)))) -> I V ->
  (forall j i, (j < length data)%nat -> (i < n)%nat -> I (fun w => term lam eps j (draw w j i)) /\ E (fun w => term lam eps j (draw w j i)) = m j) ->
  (forall j, (j < length data)%nat -> 0 < m j) ->
  E V <= exact_objective rho lam eps p (length data) m.
Proof.
  intros HE Hn Hd Hr He HV IV Hm Mp. set (Y := fun w j i => term lam eps j (draw w j i)).
  assert (Q : forall w, V w = obj X Y (length data) n (lam * Rpower rho p) eps w).
  { intros w. specialize (HV w). rewrite <- (seq_length n 0) in HV at 1. rewrite rows_value in HV by first [assumption | apply seq_ne; exact Hn]. injection HV as HV. symmetry. exact HV. }
  rewrite (E_eq X I E HE _ _ Q IV). apply (jensen X I E HE Y (length data) n m); auto.
  - intros; apply exp_pos.
  - destruct data; [contradiction|cbn; lia].
  - exact (e_ext _ _ HE _ _ Q IV).
Qed.

(* One more sample does not decrease the expected objective, when leaving out any one of n+1 samples has the same expected value. *)
Theorem C117_more_samples n rho lam eps p (V : X -> R) (U : nat -> X -> R) v : expectation I E -> (0 < n)%nat -> data <> [] -> 0 < rho -> 0 < eps ->
  (forall w, cd (cfg "mean" rho lam eps p) (S n) (rows (seq 0 (S n)) w) = Ok (Scalar (Fin (V w)))) -> I V ->
  (forall k w, (k <= n)%nat -> cd (cfg "mean" rho lam eps p) n (rows (without k n) w) = Ok (Scalar (Fin (U k w)))) ->
  (forall k, (k <= n)%nat -> I (U k) /\ E (U k) = v) ->
  v <= E V.
Proof.
  intros HE Hn Hd Hr He HV IV HU IU. destruct (E_mean X I E HE U (seq 0 (S n))) as [I1 E1]; [intros k Hk; apply in_seq in Hk; apply IU; lia|].
  rewrite (map_ext_in _ (fun _ => v)) in E1 by (intros k Hk; apply in_seq in Hk; apply IU; lia). rewrite rmean_map_const in E1 by discriminate. rewrite <- E1.
  apply (e_mono _ _ HE); auto. intros w. destruct (C117_leave_one_out n w rho lam eps p Hn Hd Hr He) as (v0 & vs & A & B & C).
  rewrite HV in A. injection A as <-. rewrite (map_ext_in _ vs); [exact C|]. intros k Hk. apply in_seq in Hk. specialize (B k ltac:(lia)). rewrite HU in B by lia. injection B as B. exact B.
Qed.

(* Uncorrelated samples: the probability that the objective is further than - eps log (1 - d) from the exact one is at most
   (sum_j var_j / m_j^2) / (n d^2). *)
Theorem C117_concentrates n rho lam eps p (V : X -> R) m var d (far : X -> R) : expectation I E -> (0 < n)%nat -> data <> [] -> 0 < rho -> 0 < eps -> 0 < d < 1 ->
  (forall w, cd (cfg "mean" rho lam eps p) n (rows (seq 0 n) w) = Ok (Scalar (Fin (V w)))) ->
  (forall j i, (j < length data)%nat -> (i < n)%nat -> I (fun w => term lam eps j (draw w j i)) /\ E (fun w => term lam eps j (draw w j i)) = m j) ->
  (forall j, (j < length data)%nat -> 0 < m j) ->
  (forall j i k, (j < length data)%nat -> (i < n)%nat -> (k < n)%nat ->
     I (fun w => (term lam eps j (draw w j i) - m j) * (term lam eps j (draw w j k) - m j)) /\
     E (fun w => (term lam eps j (draw w j i) - m j) * (term lam eps j (draw w j k) - m j)) = if Nat.eq_dec i k then var j else 0) ->
  (forall w, far w = if Rlt_dec (- eps * ln (1 - d)) (Rabs (V w - exact_objective rho lam eps p (length data) m)) then 1 else 0) -> I far ->
  E far <= rsum (map (fun j => var j / (m j * m j)) (seq 0 (length data))) / (INR n * (d * d)).
Proof.
  intros HE Hn Hd Hr He Dd HV Hm Mp Hc Hf If. set (Y := fun w j i => term lam eps j (draw w j i)).
  assert (Q : forall w, V w = obj X Y (length data) n (lam * Rpower rho p) eps w).
  { intros w. specialize (HV w). rewrite <- (seq_length n 0) in HV at 1. rewrite rows_value in HV by first [assumption | apply seq_ne; exact Hn]. injection HV as HV. symmetry. exact HV. }
  apply (chebyshev X I E HE Y (length data) n m) with (c := lam * Rpower rho p) (eps := eps); auto.
  - intros; apply exp_pos.
  - destruct data; [contradiction|cbn; lia].
  - intros w. rewrite Hf. rewrite Q. destruct (Rlt_dec _ _) as [L|L]; [right; split; [reflexivity|exact L]|left; reflexivity].
Qed.
End C117.
Print Assumptions C117_leave_one_out.
Print Assumptions C117_underestimates.
Print Assumptions C117_more_samples.
Print Assumptions C117_concentrates.

(* The same with importance sampling for the unlabelled Gaussian sampler: the exact objective is the one without it, as the weighted terms
   have the same integrals m_j. *)
Theorem C117_importance_underestimates X I E (loss : vec -> R) (cost : vec -> vec -> R) (delta : vec -> vec) s (data : list vec) (draw : X -> nat -> nat -> vec) n rho lam eps p (V : X -> R) m :
  let rows w := drawn_rows vec X (map (fun x => (x, x)) data) [] draw (seq 0 n) w in
  let weighted j z := exp ((loss z - lam * cost (nth j data []) z) / eps) * (gauss_vec s (nth j data []) z / moved_gauss s (nth j data []) (delta (nth j data [])) z) in
  expectation I E -> 0 < s -> (0 < n)%nat -> data <> [] -> 0 < rho -> 0 < eps ->
  (forall x, In x data -> length (delta x) = length x) -> (forall w j i, (j < length data)%nat -> (i < n)%nat -> length (draw w j i) = length (nth j data [])) ->
  (forall w, compute_dual vec loss cost (fun rows => Ok (map (fun r => (vadd (r_xi r) (delta (r_xi r)), map (fun z => vadd z (delta (r_xi r))) (r_zeta r))) rows))
     (nolabels_log_prob s) (nolabels_log_prob_recentered s)
     {| d_rho := Fin rho; d_lam := lam; d_eps := eps; d_power := p; d_reduction := "mean"; d_imp := true; d_erm := false |} n (rows w) = Ok (Scalar (Fin (V w)))) -> I V ->
  (forall j i, (j < length data)%nat -> (i < n)%nat -> I (fun w => weighted j (vadd (draw w j i) (delta (nth j data [])))) /\ E (fun w => weighted j (vadd (draw w j i) (delta (nth j data [])))) = m j) ->
  (forall j, (j < length data)%nat -> 0 < m j) ->
  E V <= exact_objective rho lam eps p (length data) m.
Proof.
  intros rows weighted HE Hs Hn Hd Hr He Ld Lz HV IV Hm Mp.
  assert (Pt : forall j, (j < length data)%nat -> point vec (map (fun x => (x, x)) data) [] j = nth j data [] /\ fst (nth j (map (fun x => (x, x)) data) ([], [])) = nth j data []).
  { intros j Hj. unfold point. change ([] : vec, [] : vec) with ((fun x : vec => (x, x)) []). rewrite map_nth. auto. }
  assert (Gp : forall s m z, 0 < s -> 0 < gauss_vec s m z).
  { clear. intros s m z Hs. revert z. induction m as [|a m IH]; intros [|b z]; cbn [gauss_vec]; try lra. apply Rmult_lt_0_compat; [|apply IH]. unfold gauss. apply Rmult_lt_0_compat; [|apply exp_pos]. apply Rinv_0_lt_compat. apply Rmult_lt_0_compat; [exact Hs|]. apply sqrt_lt_R0. pose proof PI_RGT_0. lra. }
  set (Y := fun w j i => weighted j (vadd (draw w j i) (delta (nth j data [])))).
  assert (Q : forall w, V w = obj X Y (length data) n (lam * Rpower rho p) eps w).
  { intros w. specialize (HV w). rewrite (C21_weighted_estimate loss cost (fun r => delta (r_xi r)) s Hs n) in HV.
    - injection HV as HV. rewrite <- HV. unfold obj, rows, drawn_rows. rewrite map_map, map_length. f_equal. f_equal. apply map_ext_in. intros j Hj. apply in_seq in Hj. destruct (Pt j ltac:(lia)) as [P1 _]. cbn [r_xi r_zeta]. rewrite P1, map_map. reflexivity.
    - split; [exact Hn|]. split; [unfold rows, drawn_rows; destruct data; [contradiction|discriminate]|]. apply Forall_forall. intros r Hin. apply in_map_iff in Hin. destruct Hin as (j & <- & _). cbn [r_zeta]. rewrite map_length, seq_length. reflexivity.
    - exact Hr.
    - exact He.
    - intros r Hin. apply in_map_iff in Hin. destruct Hin as (j & <- & Hj). apply in_seq in Hj. rewrite map_length in Hj. destruct (Pt j ltac:(lia)) as [P1 P2]. cbn [r_mean r_xi r_zeta]. rewrite P1. split; [exact P2|]. split; [apply Ld, nth_In; lia|].
      intros z Hz. apply in_map_iff in Hz. destruct Hz as (i & <- & Hi). apply in_seq in Hi. apply Lz; lia. }
  rewrite (E_eq X I E HE _ _ Q IV). apply (jensen X I E HE Y (length data) n m); auto.
  - intros w j i Hj Hi. unfold Y, weighted. apply Rmult_lt_0_compat; [apply exp_pos|]. apply Rdiv_lt_0_compat; [apply Gp; exact Hs|]. unfold moved_gauss. apply Gp. exact Hs.
  - destruct data; [contradiction|cbn; lia].
  - exact (e_ext _ _ HE _ _ Q IV).
Qed.
Print Assumptions C117_importance_underestimates.

(* averages over a finite list are expectations *)
Lemma uniform_expectation {X} (l : list X) : l <> [] -> expectation (fun _ => True) (fun f => rmean (map f l)).
Proof.
  intros Hl. split; auto.
  - intros c. split; [exact Logic.I|]. apply rmean_map_const. exact Hl.
  - intros f g _ _. split; [exact Logic.I|]. apply rmean_map_plus.
  - intros c f _. split; [exact Logic.I|]. apply rmean_map_scal.
  - intros f g _ _ H. apply rmean_map_le. intros; apply H.
Qed.
(* two independent fair draws from {0, 1} for one data point: loss z, epsilon 1, multiplier 1, no cost; the exact integral is (1 + e) / 2 and the
   hypotheses of C117_underestimates, C117_more_samples and C117_concentrates hold *)
Definition coin_draw (w : R * R) (j i : nat) : R := match i with O => fst w | _ => snd w end.
Definition coins : list (R * R) := [(0, 0); (0, 1); (1, 0); (1, 1)].
Example C117_case :
  let t w i := term R (fun z => z) (fun _ _ => 0) [(0, 0)] 0 1 1 0 (coin_draw w 0 i) in
  let E f := rmean (map f coins) in let m := (1 + exp 1) / 2 in let var := (exp 1 - 1) * (exp 1 - 1) / 4 in
  expectation (fun _ => True) E /\ 0 < m /\ (forall i, (i < 2)%nat -> E (fun w => t w i) = m) /\
  (forall i k, (i < 2)%nat -> (k < 2)%nat -> E (fun w => (t w i - m) * (t w k - m)) = if Nat.eq_dec i k then var else 0) /\
  E (fun w => ln (t w 0%nat)) = E (fun w => ln (t w 1%nat)).
Proof.
  cbv zeta. assert (T : forall z, term R (fun z => z) (fun _ _ => 0) [(0, 0)] 0 1 1 0 z = exp z) by (intros z; unfold term; f_equal; field).
  split; [apply uniform_expectation; discriminate|]. split; [pose proof (exp_pos 1); lra|]. repeat split.
  - intros i Hi. destruct i as [|[|]]; [| |lia]; unfold coins, rmean, coin_draw; cbn [map length fst snd]; rewrite !T, exp_0; unfold rsum; simpl; field.
  - intros i k Hi Hk. destruct i as [|[|]]; [| |lia]; (destruct k as [|[|]]; [| |lia]); unfold coins, rmean, coin_draw; cbn [map length fst snd]; rewrite !T, exp_0; unfold rsum; simpl; field.
  - unfold coins, rmean, coin_draw. cbn [map length fst snd]. rewrite !T. unfold rsum. simpl. field.
Qed.
