(* C159: robust models do not depend on the position and the orientation of the axes, but they depend on the units. *)
From Coq Require Import Reals List String Lra Lia Arith Bool ZArith Permutation Psatz.
From Verif Require Import PyBase RList XReal LogMeanExp CostDecoder_Model Tensor Loss_Model Loss_Spec Costs_Model Costs_Spec Costs_Proofs
  Dual_Model Dual_Spec Dual_Proofs Samplers_Model Wrap_Model Estim_Model EstDual_Model EstDual_Spec EstDual_Proofs TDual_Model TDual_Spec TDual_Proofs Props_TDual
  DedProg_Model DedProg_Spec DedLin_Proofs DedLog_Proofs.
From Verif Require Props_Loss Props_EstDual Props_CritLin Props_Units Props_Separable Props_Estim.
Import ListNotations.
Local Open Scope R_scope.
Notation length := List.length.

(* ---------- spec ---------- *)
(* a map of the features that keeps all distances in the norm p *)
Definition rigid (p : nexp) (k : nat) (f : vec -> vec) : Prop :=
  (forall x, length x = k -> length (f x) = k) /\
  forall x x', length x = k -> length x' = k -> pnorm p (vsub (f x) (f x')) = pnorm p (vsub x x').
(* an orthogonal map, with its inverse *)
Definition rotation (k : nat) (Q Q' : vec -> vec) : Prop :=
  (forall x, length x = k -> length (Q x) = k /\ length (Q' x) = k /\ Q (Q' x) = x) /\
  (forall x y a, length x = k -> length y = k -> Q (vadd x y) = vadd (Q x) (Q y) /\ Q (vscal a x) = vscal a (Q x)) /\
  (forall x y, length x = k -> length y = k -> dot (Q x) (Q y) = dot x y).
(* the step along the gradient g' moves the image of x where the image goes when x makes the step along g *)
Definition turned (f : vec -> vec) (k : nat) (lam : R) (g g' : vec) : Prop :=
  length g = k -> length g' = k /\ forall x, length x = k -> vadd (f x) (shift lam g') = f (vadd x (shift lam g)).
Definition shifted (t : vec) (x : vec) : vec := vadd x t.
Definition reordered (order : list nat) (x : vec) : vec := map (fun i => nth i x 0) order.

(* ---------- lemmas ---------- *)
Lemma nth_moved (f : vec -> vec) j l : (j < length l)%nat -> nth j (map f l) [] = f (nth j l []).
Proof. intros H. rewrite (nth_indep _ [] (f [])) by (rewrite map_length; exact H). apply map_nth. Qed.
Lemma widths_moved k (f : vec -> vec) l : (forall x, length x = k -> length (f x) = k) -> widths k l -> widths k (map f l).
Proof. intros Hf. unfold widths. rewrite Forall_map. apply Forall_impl. intros x E. apply Hf, E. Qed.
Lemma grid_moved n m k (f : vec -> vec) zs : (forall x, length x = k -> length (f x) = k) -> is_grid n m k zs -> is_grid n m k (map (map f) zs).
Proof.
  intros Hf [G1 G2]. split; [rewrite map_length; exact G1|]. rewrite Forall_map. revert G2. apply Forall_impl.
  intros b [Lb Wb]. split; [rewrite map_length; exact Lb|apply widths_moved; assumption].
Qed.
Lemma row_length n m k zs z : is_grid n m k zs -> In z zs -> length z = m.
Proof. intros [_ G] I. apply (proj1 (Forall_forall _ _) G z I). Qed.
Lemma pt_cost_rigid c k f x y x' y' : rigid (tc_p c) k f -> length x = k -> length x' = k -> pt_cost c (f x, y) (f x', y') = pt_cost c (x, y) (x', y').
Proof.
  intros [_ Hf] L L'. specialize (Hf x x' L L'). destruct c as [p w|p w [q|]]; cbn [tc_p] in *; unfold pt_cost, nc_value, nlc_point; cbn [fst snd]; rewrite ?Hf; reflexivity.
Qed.
Lemma objective_rigid c k kl f (L L' : vec -> vec -> R) n xs ys zs zls rho lam e : rigid (tc_p c) k f ->
  (forall x y, length x = k -> length y = kl -> L' (f x) y = L x y) -> widths k xs -> is_grid n (length xs) k zs -> is_grid n (length xs) kl zls ->
  robust_labelled (pt_cost c) (tc_power c) rho e lam L' (map f xs) ys (map (map f) zs) zls = robust_labelled (pt_cost c) (tc_power c) rho e lam L xs ys zs zls.
Proof.
  intros Hf HL W G G'. unfold robust_labelled. rewrite map_length. f_equal. f_equal. apply map_ext_in. intros j Hj. apply in_seq in Hj. do 4 f_equal.
  rewrite <- (map_id zls) at 1. rewrite Props_Units.map2_maps. apply map2_ext_in. intros z zl Hz.
  pose proof (in_combine_l _ _ _ _ Hz) as Iz. pose proof (in_combine_r _ _ _ _ Hz) as Izl. pose proof (row_length _ _ _ _ _ G Iz) as Lz.
  assert (Jx : length (nth j xs []) = k) by (apply Props_Units.nth_width; [exact W|unfold vec in *; lia]).
  assert (Jz : length (nth j z []) = k) by (eapply Props_Units.grid_point; [exact G|exact Iz|unfold vec in *; lia]).
  assert (Jl : length (nth j zl []) = kl) by (eapply Props_Units.grid_point; [exact G'|exact Izl|unfold vec in *; lia]).
  rewrite !nth_moved by (unfold vec in *; lia). rewrite HL by assumption. rewrite (pt_cost_rigid c k f) by assumption. reflexivity.
Qed.

(* ---------- the robust loss ---------- *)
(* A model that gives the moved points the losses of the points has the same robust loss on the moved data with the moved samples. *)
Theorem C159_labelled : forall loss w s grads loss' w' s' grads' c k kl (L L' : vec -> vec -> R) f n xs ys zs zls rho lam eps,
  samplewise_labelled (w_value loss w) k kl L -> samplewise_labelled (w_value loss' w') k kl L' -> rigid (tc_p c) k f ->
  (forall x y, length x = k -> length y = kl -> L' (f x) y = L x y) ->
  widths k xs -> widths kl ys -> length ys = length xs -> is_grid n (length xs) k zs -> is_grid n (length xs) kl zls -> xs <> [] -> zs <> [] -> 0 < rho -> eps <> 0 ->
  t_compute_dual loss' w' c s' grads' (cfg "mean" rho lam eps (tc_power c)) (Tensor.batch [length xs] k (map f xs)) (Some (Tensor.batch [length xs] kl ys))
    (grid n (length xs) k (map (map f) zs)) (Some (grid n (length xs) kl zls))
  = t_compute_dual loss w c s grads (cfg "mean" rho lam eps (tc_power c)) (Tensor.batch [length xs] k xs) (Some (Tensor.batch [length xs] kl ys))
    (grid n (length xs) k zs) (Some (grid n (length xs) kl zls)).
Proof.
  intros loss w s grads loss' w' s' grads' c k kl L L' f n xs ys zs zls rho lam eps H H' Hf HL W W' E G G' Nx Nz Hr He.
  rewrite (C112_value_labelled loss w s grads c k kl L n xs ys zs zls rho lam eps H W W' E G G' Nx Nz Hr He).
  pose proof (C112_value_labelled loss' w' s' grads' c k kl L' n (map f xs) ys (map (map f) zs) zls rho lam eps H' (widths_moved k f xs (proj1 Hf) W) W') as Q.
  rewrite map_length in Q. refine (eq_trans (Q E (grid_moved n _ k f zs (proj1 Hf) G) G' (Props_Units.nonempty_map _ _ Nx) (Props_Units.nonempty_map _ _ Nz) Hr He) _).
  do 3 f_equal. pose proof (objective_rigid c k kl f L L' n xs ys zs zls rho lam eps Hf HL W G G') as O. unfold robust_labelled in O. rewrite map_length in O. exact O.
Qed.
Print Assumptions C159_labelled.

Theorem C159_unlabelled : forall loss w s grads loss' w' s' grads' p power k (L L' : vec -> R) f n xs zs rho lam eps,
  samplewise (w_value loss w) k L -> samplewise (w_value loss' w') k L' -> rigid p k f -> (forall x, length x = k -> L' (f x) = L x) ->
  widths k xs -> is_grid n (length xs) k zs -> xs <> [] -> zs <> [] -> 0 < rho -> eps <> 0 ->
  t_compute_dual loss' w' (TNC p power) s' grads' (cfg "mean" rho lam eps power) (Tensor.batch [length xs] k (map f xs)) None (grid n (length xs) k (map (map f) zs)) None
  = t_compute_dual loss w (TNC p power) s grads (cfg "mean" rho lam eps power) (Tensor.batch [length xs] k xs) None (grid n (length xs) k zs) None.
Proof.
  intros loss w s grads loss' w' s' grads' p power k L L' f n xs zs rho lam eps H H' Hf HL W G Nx Nz Hr He.
  rewrite (C112_value_unlabelled loss w s grads p power k L n xs zs rho lam eps H W G Nx Nz Hr He).
  pose proof (C112_value_unlabelled loss' w' s' grads' p power k L' n (map f xs) (map (map f) zs) rho lam eps H' (widths_moved k f xs (proj1 Hf) W)) as Q.
  rewrite map_length in Q. refine (eq_trans (Q (grid_moved n _ k f zs (proj1 Hf) G) (Props_Units.nonempty_map _ _ Nx) (Props_Units.nonempty_map _ _ Nz) Hr He) _).
  do 5 f_equal. apply map_ext_in. intros j Hj. apply in_seq in Hj. do 4 f_equal. rewrite map_map. apply map_ext_in. intros z Iz.
  pose proof (row_length _ _ _ _ _ G Iz) as Lz.
  assert (Jx : length (nth j xs []) = k) by (apply Props_Units.nth_width; [exact W|unfold vec in *; lia]).
  assert (Jz : length (nth j z []) = k) by (eapply Props_Units.grid_point; [exact G|exact Iz|unfold vec in *; lia]).
  rewrite !nth_moved by (unfold vec in *; lia). rewrite HL by assumption. rewrite (proj2 Hf) by assumption. reflexivity.
Qed.
Print Assumptions C159_unlabelled.

(* ---------- the maps ---------- *)
Lemma vsub_as_vadd x y : vsub x y = vadd x (vscal (-1) y).
Proof. unfold vsub, vadd, vscal. revert y. induction x as [|a x IH]; intros [|b y]; cbn; try reflexivity. rewrite IH. f_equal. ring. Qed.
Theorem C159_rotations : forall k Q Q', rotation k Q Q' -> rigid (PFin 2) k Q /\ forall lam g, turned Q k lam g (Q g).
Proof.
  intros k Q Q' (HQ & Hs & Hd). split; [split; [intros x L; apply (HQ x L)|]|].
  - intros x x' L L'. assert (LS : length (vscal (-1) x') = k) by (rewrite vscal_length; exact L').
    assert (E : vsub (Q x) (Q x') = Q (vsub x x')) by (rewrite !vsub_as_vadd, (proj1 (Hs x (vscal (-1) x') 0 L LS)), (proj2 (Hs x' x' (-1) L' L')); reflexivity).
    rewrite E. assert (LV : length (vsub x x') = k) by (rewrite Props_Units.vsub_len by congruence; exact L).
    rewrite !pnorm_2. unfold norm2, sqnorm. rewrite Hd by exact LV. reflexivity.
  - intros lam g L. split; [apply (HQ g L)|]. intros x Lx.
    assert (N : norm2 (Q g) = norm2 g) by (unfold norm2, sqnorm; rewrite Hd by exact L; reflexivity).
    unfold shift. rewrite N. assert (S : forall a x, length x = k -> Q (vscal a x) = vscal a (Q x)) by (intros a z Lz; apply (Hs z z a Lz Lz)).
    rewrite <- !S by (rewrite ?vscal_length; exact L). symmetry. apply (Hs x _ 0); [exact Lx|]. rewrite !vscal_length. exact L.
Qed.
Print Assumptions C159_rotations.
Lemma vsub_shifted t : forall x x', length x = length t -> length x' = length t -> vsub (shifted t x) (shifted t x') = vsub x x'.
Proof.
  unfold shifted, vsub, vadd. induction t as [|a t IH]; intros [|b x] [|b' x'] L L'; try discriminate; [reflexivity|]. cbn. f_equal; [ring|]. apply IH; [injection L as L|injection L' as L']; assumption.
Qed.
Lemma vadd_swap : forall x y t, length x = length t -> length y = length t -> vadd (vadd x t) y = vadd (vadd x y) t.
Proof. unfold vadd. induction x as [|a x IH]; intros [|b y] [|c t] L L'; try discriminate; [reflexivity|]. cbn in *. rewrite IH by lia. f_equal. ring. Qed.
Lemma shift_length lam g : length (shift lam g) = length g.
Proof. unfold shift. rewrite !vscal_length. reflexivity. Qed.
Theorem C159_shifts : forall p t, rigid p (length t) (shifted t) /\ forall lam g, turned (shifted t) (length t) lam g g.
Proof.
  intros p t. split; [split; [intros x L; unfold shifted; rewrite Props_Units.vadd_len; congruence|]|].
  - intros x x' L L'. rewrite vsub_shifted by assumption. reflexivity.
  - intros lam g L. split; [exact L|]. intros x Lx. unfold shifted. apply vadd_swap; [exact Lx|]. rewrite shift_length. exact L.
Qed.
Print Assumptions C159_shifts.
Lemma rsum_perm l l' : Permutation l l' -> rsum l = rsum l'.
Proof. induction 1; cbn; try lra. Qed.
Lemma rmax0_perm l l' : Permutation l l' -> rmax0 l = rmax0 l'.
Proof. induction 1; cbn; [reflexivity|rewrite IHPermutation; reflexivity| |congruence]. rewrite !Rmax_assoc, (Rmax_comm y x). reflexivity. Qed.
Lemma reorder_self k v : length v = k -> map (fun i => nth i v 0) (seq 0 k) = v.
Proof.
  intros <-. induction v as [|a v IH]; [reflexivity|]. cbn [length seq map nth]. f_equal. rewrite <- seq_shift, map_map. exact IH.
Qed.
Lemma pnorm_reordered p k order v : Permutation order (seq 0 k) -> length v = k -> pnorm p (reordered order v) = pnorm p v.
Proof.
  intros P L. assert (E : Permutation (reordered order v) v).
  { unfold reordered. eapply Permutation_trans; [apply Permutation_map, P|]. rewrite reorder_self by exact L. apply Permutation_refl. }
  unfold pnorm. destruct p; [f_equal; apply rsum_perm|apply rmax0_perm]; apply Permutation_map; exact E.
Qed.
Lemma nth_vsub i : forall x x', length x = length x' -> nth i (vsub x x') 0 = nth i x 0 - nth i x' 0.
Proof. induction i as [|i IH]; intros [|a x] [|b x'] L; try discriminate; cbn; try ring. apply IH. injection L as L. exact L. Qed.
Theorem C159_reorderings : forall p k order, Permutation order (seq 0 k) -> rigid p k (reordered order).
Proof.
  intros p k order P. split; [intros x _; unfold reordered; rewrite map_length, (Permutation_length P), seq_length; reflexivity|]. intros x x' L L'.
  rewrite <- (pnorm_reordered p k order (vsub x x')) by (try exact P; rewrite Props_Units.vsub_len by congruence; exact L). f_equal.
  unfold reordered, vsub at 1. rewrite Props_Units.map2_maps. clear P. induction order as [|i o IH]; [reflexivity|]. cbn [map2 map]. rewrite IH, nth_vsub by congruence. reflexivity.
Qed.
Print Assumptions C159_reorderings.

(* ---------- the estimators ---------- *)
Lemma displaced_moved f k lam n m G G' zs : Forall2 (turned f k lam) G G' -> widths k G -> is_grid n m k zs ->
  displaced (shift lam) G' (map (map f) zs) = map (map f) (displaced (shift lam) G zs).
Proof.
  intros T W [_ Gz]. unfold displaced. rewrite !map_map. apply map_ext_in. intros z I. destruct (proj1 (Forall_forall _ _) Gz z I) as [_ Wz]. clear I Gz.
  revert z Wz. induction T as [|g g' G G' Hg T IH]; intros [|x z] Wz; try reflexivity. inversion W as [|? ? Wg WG]; subst. inversion Wz as [|? ? Wx WZ]; subst.
  cbn [map map2]. f_equal; [apply (proj2 (Hg eq_refl)); exact Wx|]. apply IH; assumption.
Qed.
Lemma turned_widths f k lam G G' : Forall2 (turned f k lam) G G' -> widths k G -> length G' = length G /\ widths k G'.
Proof.
  intros T. induction T as [|g g' G G' Hg T IH]; intros W; [split; [reflexivity|constructor]|]. inversion W as [|? ? Wg WG]; subst. destruct (IH WG) as [E V].
  split; [cbn; f_equal; exact E|]. constructor; [apply (Hg eq_refl)|exact V].
Qed.
Lemma displaced_grid k n m G zs (step : vec -> vec) : (forall g, length (step g) = length g) -> length G = m -> widths k G -> is_grid n m k zs -> is_grid n m k (displaced step G zs).
Proof.
  intros Hs LG W [G1 G2]. split; [unfold displaced; rewrite map_length; exact G1|]. unfold displaced. rewrite Forall_map. revert G2. apply Forall_impl. intros z [Lz Wz].
  subst m. clear G1. revert z Lz Wz. induction W as [|g G Wg W IH]; intros [|x z] Lz Wz; try discriminate; [split; [reflexivity|constructor]|]. inversion Wz as [|? ? Wx WZ]; subst.
  destruct (IH z ltac:(injection Lz as Lz; exact Lz) WZ) as [A B]. cbn [map2]. split; [cbn [length]; f_equal; exact A|]. constructor; [|exact B].
  rewrite Props_Units.vadd_len; [exact Wx|]. rewrite Hs. symmetry. unfold vec in *. congruence.
Qed.

(* the two cases: plain samples, and samples moved by importance sampling, where the gradients turn with the data *)
Definition same_training (d d' : dual_args) (c : tcost) (e : R) (loss loss' : Tensor.tensor -> option Tensor.tensor -> Result Tensor.tensor) (w w' : wrapped) (k kl : nat) (f : vec -> vec) (xs ys : list vec) : Prop :=
  forall n zs zls lam grads grads' s s', is_grid n (length xs) k zs -> is_grid n (length xs) kl zls -> zs <> [] ->
  let labels := Some (Tensor.batch [length xs] kl ys) in
  (a_imp_samp d = false \/
   tsampler_of d k kl = Some s /\ tsampler_of d' k kl = Some s' /\ lam <> 0 /\ (exists kp, kp <> 0 /\ c_kappa (a_cost d) = Some (Fin kp)) /\
   exists G G' GL, grads (Tensor.batch [length xs] k xs) labels = Ok (map (map Fin) G, Some (map (map Fin) GL)) /\
     grads' (Tensor.batch [length xs] k (map f xs)) labels = Ok (map (map Fin) G', Some (map (map Fin) GL)) /\
     length G = length xs /\ widths k G /\ Forall (Exists (fun a => a <> 0)) G /\ Forall (Exists (fun a => a <> 0)) G' /\
     length GL = length xs /\ widths kl GL /\ Forall (Exists (fun a => a <> 0)) GL /\ Forall2 (turned f k lam) G G') ->
  t_compute_dual loss' w' c s' grads' (dual_of d' (tc_power c) e lam) (Tensor.batch [length xs] k (map f xs)) labels (grid n (length xs) k (map (map f) zs)) (Some (grid n (length xs) kl zls))
  = t_compute_dual loss w c s grads (dual_of d (tc_power c) e lam) (Tensor.batch [length xs] k xs) labels (grid n (length xs) k zs) (Some (grid n (length xs) kl zls)).
Lemma trains_moved d d' loss loss' w w' k kl (L L' : vec -> vec -> R) xs ys rho c e f :
  trains_labelled d loss w k kl L xs ys rho -> trains_labelled d' loss' w' k kl L' (map f xs) ys rho ->
  tcost_of (a_cost d) = Some c -> a_cost d' = a_cost d -> a_imp_samp d' = a_imp_samp d -> a_epsilon d = Fin e -> a_epsilon d' = Fin e -> e <> 0 ->
  rigid (tc_p c) k f -> (forall x y, length x = k -> length y = kl -> L' (f x) y = L x y) -> widths k xs ->
  same_training d d' c e loss loss' w w' k kl f xs ys.
Proof.
  intros (c1 & C1 & T1) (c2 & C2 & T2) C Ec Ei Ee Ee' He Hf HL W n zs zls lam grads grads' s s' G G' Nz labels K.
  rewrite C in C1. injection C1 as <-. rewrite Ec, C in C2. injection C2 as <-. rewrite map_length in T2.
  destruct (T1 n zs zls e lam grads G G' Nz Ee He) as (V1 & V1' & _).
  destruct (T2 n (map (map f) zs) zls e lam grads' (grid_moved _ _ _ _ _ (proj1 Hf) G) G' (Props_Units.nonempty_map _ _ Nz) Ee' He) as (V2 & V2' & _).
  destruct (a_imp_samp d) eqn:I.
  - destruct K as [K|(S & S' & Hl & (kp & Hk & Kp) & Gr & Gr' & GL & E1 & E2 & LG & WG & XG & XG' & LL & WL & XL & Tn)]; [discriminate|].
    destruct (turned_widths _ _ _ _ _ Tn WG) as [LG' WG'].
    specialize (V1' eq_refl s kp Gr GL S Kp Hk Hl E1 LG WG XG LL WL XL).
    rewrite <- Ec in Kp. specialize (V2' Ei s' kp Gr' GL S' Kp Hk Hl E2 (eq_trans LG' LG) WG' XG' LL WL XL).
    refine (eq_trans V2' (eq_trans _ (eq_sym V1'))). do 3 f_equal. rewrite (displaced_moved f k lam n (length xs) Gr Gr' zs Tn WG G).
    apply (objective_rigid c k kl f L L' n); try assumption.
    + apply displaced_grid; try assumption. intros g. apply shift_length.
    + apply displaced_grid; try assumption. intros g. rewrite vscal_length. apply shift_length.
  - refine (eq_trans (V2 Ei s') (eq_trans _ (eq_sym (V1 eq_refl s)))). do 3 f_equal. apply (objective_rigid c k kl f L L' n); assumption.
Qed.

(* LinearRegression: the same values of the trained loss, if the parameters predict the same (and have the same ridge penalty) *)
Theorem C159_linear : forall pf a X y d t d' t' wt b wt' b' f c e, lr_dispatch pf a X y = Ok (FTorch d t) -> lr_dispatch pf a (map f X) y = Ok (FTorch d' t') ->
  X <> [] -> widths (length wt) X -> length y = length X -> 0 < lr_rho a ->
  tcost_of (a_cost d) = Some c -> a_cost d' = a_cost d -> a_imp_samp d' = a_imp_samp d -> a_epsilon d = Fin e -> a_epsilon d' = Fin e -> e <> 0 ->
  length wt' = length wt -> rigid (tc_p c) (length wt) f -> (forall x, length x = length wt -> dot wt' (f x) + b' = dot wt x + b) ->
  penalty (lr_l2_reg a) (wt' ++ [b']) = penalty (lr_l2_reg a) (wt ++ [b]) ->
  same_training d d' c e (lr_call wt b) (lr_call wt' b') (wrapped_of d [] [wt; [b]]) (wrapped_of d' [] [wt'; [b']]) (length wt) 1 f X (map (fun v => [v]) y).
Proof.
  intros pf a X y d t d' t' wt b wt' b' f c e H H' Nx W E Hr C C' I Ee Ee' He Lw Hf Hp Hpen.
  destruct (Props_EstDual.C113_linear pf a X y d t wt b H Nx W E Hr) as (_ & T1).
  assert (W' : widths (length wt') (map f X)) by (unfold vec in *; rewrite Lw; apply widths_moved; [apply Hf|exact W]).
  destruct (Props_EstDual.C113_linear pf a (map f X) y d' t' wt' b' H' (Props_Units.nonempty_map _ _ Nx) W' ltac:(rewrite map_length; exact E) Hr) as (_ & T2).
  rewrite Lw in T2. refine (trains_moved _ _ _ _ _ _ _ _ _ _ _ _ _ _ _ _ T1 T2 C C' I Ee Ee' He Hf _ W).
  intros x l Lx _. cbn beta. rewrite Hpen, (Hp x Lx). reflexivity.
Qed.
Print Assumptions C159_linear.

Theorem C159_logistic : forall pf a X y d t d' t' wt b wt' b' c0 c1 f c e, lg_dispatch pf a X y = Ok (FTorch d t) -> lg_dispatch pf a (map f X) y = Ok (FTorch d' t') ->
  (c0 < c1)%Z -> (forall v, In v y <-> v = c0 \/ v = c1) -> X <> [] -> widths (length wt) X -> length y = length X -> 0 < lg_rho a ->
  tcost_of (a_cost d) = Some c -> a_cost d' = a_cost d -> a_imp_samp d' = a_imp_samp d -> a_epsilon d = Fin e -> a_epsilon d' = Fin e -> e <> 0 ->
  let bias z := if lg_fit_intercept a then z else 0 in
  let trained (w : vec) z := if lg_fit_intercept a then [w; [z]] else [w] in
  length wt' = length wt -> rigid (tc_p c) (length wt) f -> (forall x, length x = length wt -> dot wt' (f x) + bias b' = dot wt x + bias b) ->
  penalty (lg_l2_reg a) (List.concat (trained wt' b')) = penalty (lg_l2_reg a) (List.concat (trained wt b)) ->
  same_training d d' c e (lg_call wt (bias b)) (lg_call wt' (bias b')) (wrapped_of d [] (trained wt b)) (wrapped_of d' [] (trained wt' b')) (length wt) 1 f X
    (map (fun v => [if Z.eq_dec v c0 then -1 else 1]) y).
Proof.
  intros pf a X y d t d' t' wt b wt' b' c0 c1 f c e H H' Hc Hy Nx W E Hr C C' I Ee Ee' He bias trained Lw Hf Hp Hpen.
  destruct (Props_EstDual.C113_logistic_binary pf a X y d t wt b c0 c1 H Hc Hy Nx W E Hr) as (_ & T1).
  assert (W' : widths (length wt') (map f X)) by (unfold vec in *; rewrite Lw; apply widths_moved; [apply Hf|exact W]).
  destruct (Props_EstDual.C113_logistic_binary pf a (map f X) y d' t' wt' b' c0 c1 H' Hc Hy (Props_Units.nonempty_map _ _ Nx) W' ltac:(rewrite map_length; exact E) Hr) as (_ & T2).
  rewrite Lw in T2. refine (trains_moved _ _ _ _ _ _ _ _ _ _ _ _ _ _ _ _ T1 T2 C C' I Ee Ee' He Hf _ W).
  intros x l Lx _. cbn beta. unfold bias, trained in *. apply f_equal2; [rewrite (Hp x Lx); reflexivity|exact Hpen].
Qed.
Print Assumptions C159_logistic.

(* ---------- the dedicated programmes ---------- *)
Definition moved (f : vec -> vec) (data : list (vec * R)) : list (vec * R) := map (fun z => (f (fst z), snd z)) data.
Lemma lin_same f rho data c b c' b' : norm2 c' = norm2 c -> (forall z, In z data -> dot (f (fst z)) c' + b' = dot (fst z) c + b) ->
  lin_objective rho (moved f data) c' b' = lin_objective rho data c b.
Proof.
  intros N H. unfold lin_objective, moved. rewrite !map_length, N, map_map. do 3 f_equal. apply map_ext_in. intros z I. unfold lin_residual. cbn [fst snd]. rewrite (H z I). reflexivity.
Qed.
Lemma log_same f d fi kappa data c b c' b' lam s : length c' = d -> length c = d -> norm2 c' = norm2 c -> (fi = false -> b' = 0) -> (forall z, In z data -> dot (f (fst z)) c' + b' = dot (fst z) c + b) ->
  log_feasible d fi kappa data c b lam s -> log_feasible d fi kappa (moved f data) c' b' lam s.
Proof.
  intros L' L N B H (_ & _ & Hn & F). split; [exact L'|]. split; [exact B|]. split; [rewrite N; exact Hn|]. unfold moved. clear Hn N.
  induction F as [|z si l s Hz F IH]; cbn [map]; constructor.
  - cbn [fst snd]. rewrite (H z) by (left; reflexivity). exact Hz.
  - apply IH. intros z' I. apply H. right. exact I.
Qed.
Section Rotated.
Variables (d : nat) (Q Q' : vec -> vec).
Hypothesis HR : rotation d Q Q'.
Lemma rot_len x : length x = d -> length (Q x) = d. Proof. intros L. apply (proj1 HR x L). Qed.
Lemma rot_norm x : length x = d -> norm2 (Q x) = norm2 x.
Proof. intros L. unfold norm2, sqnorm. destruct HR as (_ & _ & D). rewrite D by exact L. reflexivity. Qed.
Lemma back_len x : length x = d -> length (Q' x) = d. Proof. intros L. apply (proj1 HR x L). Qed.
Lemma back_norm x : length x = d -> norm2 (Q' x) = norm2 x.
Proof. intros L. rewrite <- (rot_norm (Q' x)) by (apply back_len, L). f_equal. apply (proj1 HR x L). Qed.
Lemma rot_dot x c : length x = d -> length c = d -> dot (Q x) (Q c) = dot x c.
Proof. intros. apply HR; assumption. Qed.
Lemma back_dot x c : length x = d -> length c = d -> dot x (Q' c) = dot (Q x) c.
Proof. intros L Lc. rewrite <- (rot_dot x (Q' c) L (back_len c Lc)). f_equal. apply (proj1 HR c Lc). Qed.
End Rotated.

(* A solution for the rotated data is the rotated solution: the same predictions. *)
Theorem C159_dedicated_linear_rotated : forall d Q Q' fi rho data coeff b, rotation d Q Q' -> Forall (fun z : vec * R => length (fst z) = d) data -> length coeff = d ->
  (lin_optimal d fi rho data coeff b <-> lin_optimal d fi rho (moved Q data) (Q coeff) b).
Proof.
  intros d Q Q' fi rho data coeff b HR Hx Lc.
  assert (S : forall c b, length c = d -> lin_objective rho (moved Q data) (Q c) b = lin_objective rho data c b).
  { intros c b0 L. apply lin_same; [apply (rot_norm d Q Q' HR c L)|]. intros z I. rewrite (rot_dot d Q Q' HR) by (try exact L; apply (proj1 (Forall_forall _ _) Hx z I)). reflexivity. }
  split; intros [[_ F] O]; (split; [split; [try (apply (rot_len d Q Q' HR)); exact Lc|exact F]|]); intros c' b' [L' F'].
  - rewrite S by exact Lc. assert (E : Q (Q' c') = c') by apply (proj1 HR c' L'). rewrite <- E at 1. rewrite S by apply (back_len d Q Q' HR c' L').
    apply O. split; [apply (back_len d Q Q' HR c' L')|exact F'].
  - rewrite <- (S coeff b Lc), <- (S c' b' L'). apply O. split; [apply (rot_len d Q Q' HR c' L')|exact F'].
Qed.
Print Assumptions C159_dedicated_linear_rotated.

Theorem C159_dedicated_logistic_rotated : forall d Q Q' fi kappa rho data beta b lam s, rotation d Q Q' -> Forall (fun z : vec * R => length (fst z) = d) data -> length beta = d ->
  (log_optimal d fi kappa rho data beta b lam s <-> log_optimal d fi kappa rho (moved Q data) (Q beta) b lam s).
Proof.
  intros d Q Q' fi kappa rho data beta b lam s HR Hx Lc.
  assert (S : forall c b lam s, length c = d -> (log_feasible d fi kappa data c b lam s <-> log_feasible d fi kappa (moved Q data) (Q c) b lam s)).
  { intros c b0 lam0 s0 L. assert (DQ : forall z, In z data -> dot (Q (fst z)) (Q c) = dot (fst z) c) by (intros z I; apply (rot_dot d Q Q' HR); [apply (proj1 (Forall_forall _ _) Hx z I)|exact L]).
    split; intros K.
    - apply (log_same Q d fi kappa data c b0); try assumption; [apply (rot_len d Q Q' HR c L)|apply (rot_norm d Q Q' HR c L)|apply K|intros z I; rewrite (DQ z I); reflexivity].
    - destruct K as (_ & B & N & F). split; [exact L|]. split; [exact B|]. split; [rewrite <- (rot_norm d Q Q' HR c L); exact N|].
      unfold moved in F. clear Hx B N. revert s0 F. induction data as [|z l IH]; intros s0 F; cbn [map] in F; inversion F as [|? si ? s1 Hz Fs]; subst; constructor.
      + cbn [fst snd] in Hz. rewrite (DQ z) in Hz by (left; reflexivity). exact Hz.
      + apply IH; [intros z' I; apply DQ; right; exact I|exact Fs]. }
  split; intros [F O]; (split; [apply (S beta); assumption|]); intros c' b' lam' s' F'.
  - assert (L' : length c' = d) by apply F'. assert (E : Q (Q' c') = c') by apply (proj1 HR c' L'). apply (O (Q' c') b'). apply S; [apply (back_len d Q Q' HR c' L')|]. rewrite E. exact F'.
  - apply (O (Q c') b'). apply S; [apply F'|exact F'].
Qed.
Print Assumptions C159_dedicated_logistic_rotated.

(* With an intercept the origin does not matter: the same coefficients, and the intercept that gives the same predictions. *)
Theorem C159_dedicated_linear_shifted : forall t rho data coeff b, Forall (fun z : vec * R => length (fst z) = length t) data -> length coeff = length t ->
  (lin_optimal (length t) true rho data coeff b <-> lin_optimal (length t) true rho (moved (shifted t) data) coeff (b - dot t coeff)).
Proof.
  intros t rho data coeff b Hx Lc.
  assert (S : forall c b, length c = length t -> lin_objective rho (moved (shifted t) data) c (b - dot t c) = lin_objective rho data c b).
  { intros c b0 L. apply lin_same; [reflexivity|]. intros z I. pose proof (proj1 (Forall_forall _ _) Hx z I) as Lz. cbn beta in Lz. unfold shifted. rewrite dot_vadd_l by congruence. ring. }
  split; intros [[_ F] O]; (split; [split; [exact Lc|discriminate]|]); intros c' b' [L' F'].
  - rewrite S by exact Lc. replace b' with ((b' + dot t c') - dot t c') by ring. rewrite S by exact L'. apply O. split; [exact L'|discriminate].
  - rewrite <- (S coeff b Lc), <- (S c' b' L'). apply O. split; [exact L'|discriminate].
Qed.
Print Assumptions C159_dedicated_linear_shifted.

(* The unit of the features does matter: doubling them brings a constant model back to life at the same radius. *)
Theorem C159_units_matter : exists rho data, 0 < rho /\
  (forall coeff b, lin_optimal 1 true rho data coeff b -> Forall (fun w => w = 0) coeff) /\
  (forall coeff b, lin_optimal 1 true rho (moved (vscal 2) data) coeff b -> ~ Forall (fun w => w = 0) coeff).
Proof.
  exists 3, Props_CritLin.two_points. split; [lra|]. split.
  - intros coeff b [F O]. apply (Props_CritLin.C158_only_constants true 1 3 Props_CritLin.two_points coeff b Props_CritLin.two_ok); try assumption; [lra|].
    rewrite Props_CritLin.two_spread, Props_CritLin.two_leverage, Props_CritLin.norm_two. lra.
  - intros coeff b [F O]. set (data := moved (vscal 2) Props_CritLin.two_points) in *.
    assert (T : Props_CritLin.tabular 1 data) by (split; [discriminate|]; repeat (apply Forall_cons || apply Forall_nil); reflexivity).
    apply (Props_CritLin.C158_below true 1 3 data coeff b T); try assumption; [lra|].
    assert (S : Props_CritLin.spread true data = 1) by (rewrite <- Props_CritLin.two_spread; reflexivity).
    assert (B : Props_CritLin.base true data = 2) by (rewrite <- Props_CritLin.two_base; reflexivity).
    assert (L : Props_CritLin.leverage true 1 data = [4]) by (unfold Props_CritLin.leverage, CritLog_Proofs.vaverage; rewrite B; unfold data, moved, vscal, vadd, Props_CritLin.two_points; simpl; f_equal; field).
    rewrite S, L. unfold norm2, sqnorm, dot. simpl. replace (4 * 4 + 0) with (4 * 4) by ring. rewrite sqrt_square by lra. lra.
Qed.
Print Assumptions C159_units_matter.

(* ---------- cases ---------- *)
(* turning the plane by an angle *)
Definition turn (a : R) (x : vec) : vec := match x with [u; v] => [cos a * u - sin a * v; sin a * u + cos a * v] | _ => x end.
Lemma cs1 a : cos a * cos a + sin a * sin a = 1.
Proof. pose proof (sin2_cos2 a) as H. unfold Rsqr in H. lra. Qed.
Example C159_rotations_case : forall a, rotation 2 (turn a) (turn (- a)).
Proof.
  intros a. pose proof (cs1 a) as C. split; [|split].
  - intros [|u [|v [|w x]]] L; try discriminate. split; [reflexivity|]. split; [reflexivity|]. cbn. rewrite cos_neg, sin_neg. f_equal; [|f_equal].
    + transitivity ((cos a * cos a + sin a * sin a) * u); [ring|rewrite C; ring].
    + transitivity ((cos a * cos a + sin a * sin a) * v); [ring|rewrite C; ring].
  - intros [|u [|v [|w x]]] [|u' [|v' [|w' y]]] k L L'; try discriminate. unfold vadd, vscal. cbn. split; (apply f_equal2; [ring|]; apply f_equal2; [ring|reflexivity]).
  - intros [|u [|v [|w x]]] [|u' [|v' [|w' y]]] L L'; try discriminate. unfold dot. cbn. transitivity ((cos a * cos a + sin a * sin a) * (u * u' + v * v')); [ring|rewrite C; ring].
Qed.
Example C159_reorderings_case : rigid PInfty 3 (reordered [2; 0; 1]%nat) /\ reordered [2; 0; 1]%nat [5; 6; 7] = [7; 5; 6].
Proof.
  split; [|reflexivity]. apply C159_reorderings. cbn. eapply perm_trans; [apply perm_swap|]. apply perm_skip. apply perm_swap.
Qed.
Example C159_shifts_case : rigid (PFin 1) 2 (shifted [10; -3]) /\ shifted [10; -3] [1; 2] = [11; -1].
Proof. split; [apply (C159_shifts (PFin 1) [10; -3])|]. unfold shifted, vadd. cbn. apply f_equal2; [ring|]. apply f_equal2; [ring|reflexivity]. Qed.
(* a logistic model on swapped features *)
Example C159_labelled_case : forall s grads, 
  t_compute_dual (Props_Loss.bin_loss [2; 1] 3) (Props_Loss.bin_wrapped [2; 1] 3) (TNC (PFin 1) 1) s grads (cfg "mean" 1 2 1 1) (Tensor.batch [1%nat] 2 [[6; 5]]) (Some (Tensor.batch [1%nat] 1 [[1]])) (grid 1 1 2 [[[7; 4]]]) (Some (grid 1 1 1 [[[1]]]))
  = t_compute_dual (Props_Loss.bin_loss [1; 2] 3) (Props_Loss.bin_wrapped [1; 2] 3) (TNC (PFin 1) 1) s grads (cfg "mean" 1 2 1 1) (Tensor.batch [1%nat] 2 [[5; 6]]) (Some (Tensor.batch [1%nat] 1 [[1]])) (grid 1 1 2 [[[4; 7]]]) (Some (grid 1 1 1 [[[1]]])).
Proof.
  intros s grads. refine (C159_labelled _ _ s grads _ _ s grads (TNC (PFin 1) 1) 2 1 _ _ (reordered [1; 0]%nat) 1 [[5; 6]] [[1]] [[[4; 7]]] [[[1]]] 1 2 1
    (Props_Separable.bin_samples [1; 2] 3) (Props_Separable.bin_samples [2; 1] 3) _ _ _ _ _ _ _ _ _ _ _); try lra; try discriminate; try reflexivity.
  - apply C159_reorderings. cbn. apply perm_swap.
  - intros [|u [|v [|w x]]] [|l [|l' y]] L L'; try discriminate. unfold reordered, dot. cbn. do 6 f_equal. ring.
  - repeat constructor.
  - repeat constructor.
  - split; [reflexivity|]. repeat constructor.
  - split; [reflexivity|]. repeat constructor.
Qed.
Example C159_dedicated_linear_rotated_case : forall a fi rho coeff b, length coeff = 2%nat ->
  (lin_optimal 2 fi rho [([1; 2], 3); ([4; -1], 5)] coeff b <-> lin_optimal 2 fi rho [(turn a [1; 2], 3); (turn a [4; -1], 5)] (turn a coeff) b).
Proof.
  intros a fi rho coeff b L. apply (C159_dedicated_linear_rotated 2 (turn a) (turn (- a)) fi rho [([1; 2], 3); ([4; -1], 5)] coeff b (C159_rotations_case a)); [|exact L].
  repeat (apply Forall_cons || apply Forall_nil); reflexivity.
Qed.
Example C159_dedicated_linear_shifted_case : forall coeff b, length coeff = 1%nat ->
  (lin_optimal 1 true 2 [([1], 3); ([4], 5)] coeff b <-> lin_optimal 1 true 2 [([1 + 10], 3); ([4 + 10], 5)] coeff (b - dot [10] coeff)).
Proof.
  intros coeff b L. apply (C159_dedicated_linear_shifted [10] 2 [([1], 3); ([4], 5)] coeff b); [|exact L]. repeat (apply Forall_cons || apply Forall_nil); reflexivity.
Qed.
(* the default LinearRegression on two samples and on the samples shifted by 10 *)
Example C159_linear_case : exists d t d' t', lr_dispatch Props_Estim.read lr_defaults [[1]; [3]] [2; 5] = Ok (FTorch d t) /\ lr_dispatch Props_Estim.read lr_defaults (map (shifted [10]) [[1]; [3]]) [2; 5] = Ok (FTorch d' t') /\
  (forall x, length x = 1%nat -> dot [2] (shifted [10] x) + -19 = dot [2] x + 1) /\ penalty (lr_l2_reg lr_defaults) ([2] ++ [-19]) = penalty (lr_l2_reg lr_defaults) ([2] ++ [1]).
Proof.
  destruct (Props_Estim.C57_weber_linear_logistic_portfolio Props_Estim.read [[1]; [3]] eq_refl eq_refl) as (_ & E & _). destruct (E [2; 5]) as (d & Ed & _).
  destruct (Props_Estim.C57_weber_linear_logistic_portfolio Props_Estim.read (map (shifted [10]) [[1]; [3]]) eq_refl eq_refl) as (_ & E' & _). destruct (E' [2; 5]) as (d' & Ed' & _).
  eexists d, _, d', _. split; [exact Ed|]. split; [exact Ed'|]. split.
  - intros [|a [|b x]] L; try discriminate. unfold shifted, vadd, dot. cbn. ring.
  - unfold penalty. cbn [lr_l2_reg lr_defaults]. rewrite Rmax_left by lra. lra.
Qed.
Example C159_dedicated_logistic_rotated_case : forall a beta b lam s, length beta = 2%nat ->
  (log_optimal 2 true 1000 1 [([1; 2], 1); ([4; -1], -1)] beta b lam s <-> log_optimal 2 true 1000 1 [(turn a [1; 2], 1); (turn a [4; -1], -1)] (turn a beta) b lam s).
Proof.
  intros a beta b lam s L. apply (C159_dedicated_logistic_rotated 2 (turn a) (turn (- a)) true 1000 1 [([1; 2], 1); ([4; -1], -1)] beta b lam s (C159_rotations_case a)); [|exact L].
  repeat (apply Forall_cons || apply Forall_nil); reflexivity.
Qed.
(* the newsvendor loss on swapped demands *)
Example C159_unlabelled_case : forall s grads,
  t_compute_dual (Props_TDual.nv_call 1 2 5) (Props_TDual.nv_wrapped 5) (TNC (PFin 2) 2) s grads (cfg "mean" 1 3 1 2) (Tensor.batch [1%nat] 2 [[3; 1]]) None (grid 1 1 2 [[[4; 0]]]) None
  = t_compute_dual (Props_TDual.nv_call 1 2 5) (Props_TDual.nv_wrapped 5) (TNC (PFin 2) 2) s grads (cfg "mean" 1 3 1 2) (Tensor.batch [1%nat] 2 [[1; 3]]) None (grid 1 1 2 [[[0; 4]]]) None.
Proof.
  intros s grads. refine (C159_unlabelled _ _ s grads _ _ s grads (PFin 2) 2 2 _ _ (reordered [1; 0]%nat) 1 [[1; 3]] [[[0; 4]]] 1 3 1
    (Props_Units.nv_samplewise 1 2 5 2 ltac:(lia)) (Props_Units.nv_samplewise 1 2 5 2 ltac:(lia)) _ _ _ _ _ _ _ _); try lra; try discriminate.
  - apply C159_reorderings. cbn. apply perm_swap.
  - intros [|u [|v [|w x]]] L; try discriminate. unfold reordered, rmean. cbn. field.
  - repeat constructor.
  - split; [reflexivity|]. repeat constructor.
Qed.
Example C159_logistic_case : exists d t d' t', lg_dispatch Props_Estim.read lg_defaults [[1; 2]; [3; 4]] [5; 8]%Z = Ok (FTorch d t) /\
  lg_dispatch Props_Estim.read lg_defaults (map (reordered [1; 0]%nat) [[1; 2]; [3; 4]]) [5; 8]%Z = Ok (FTorch d' t') /\ (forall v, In v [5; 8]%Z <-> v = 5%Z \/ v = 8%Z) /\
  (forall x, length x = 2%nat -> dot [3; 7] (reordered [1; 0]%nat x) + 1 = dot [7; 3] x + 1) /\ penalty (1 / 2) (List.concat [[3; 7]; [1]]) = penalty (1 / 2) (List.concat [[7; 3]; [1]]).
Proof.
  assert (V : exists v w, In v [5; 8]%Z /\ In w [5; 8]%Z /\ v <> w) by (exists 5%Z, 8%Z; cbn; intuition discriminate).
  destruct (Props_Estim.C57_weber_linear_logistic_portfolio Props_Estim.read [[1; 2]; [3; 4]] eq_refl eq_refl) as (_ & _ & E & _). destruct (E [5; 8]%Z V) as (d & k & Ed & _).
  destruct (Props_Estim.C57_weber_linear_logistic_portfolio Props_Estim.read (map (reordered [1; 0]%nat) [[1; 2]; [3; 4]]) eq_refl eq_refl) as (_ & _ & E' & _). destruct (E' [5; 8]%Z V) as (d' & k' & Ed' & _).
  eexists d, _, d', _. split; [exact Ed|]. split; [exact Ed'|]. split; [intros v; cbn; intuition|]. split.
  - intros [|u [|v [|w x]]] L; try discriminate. unfold reordered, dot. cbn. ring.
  - unfold penalty, sqnorm, dot. cbn. lra.
Qed.
