(* C103 - C105: draws of the explicit-covariance samplers, default samplers, and the sampler a dual loss uses. *)
From Coq Require Import Reals List Bool ZArith Lra Lia.
From Verif Require Import PyBase RList XReal Samplers_Model Samplers_Spec Samplers_Proofs Draws_Proofs Zeta_Model Zeta_Proofs.
Import ListNotations.
Local Open Scope R_scope.

Lemma rect_last d b : rect d b -> b <> [] -> last_dim b = d.
Proof. intros H N. destruct b as [|r b]; [congruence|]. inversion H; subst. reflexivity. Qed.

(* ---------- C103 ---------- *)
(* C103 (factor): every data point moves by the Cholesky factor times the noise *)
Theorem C103_factor : forall (G : Type) (draw : fam -> nat -> list nat -> G -> list batch * G) chol prec_chol xi L seed s n g noise g',
  ns_init chol prec_chol xi {| k_sigma := None; k_tril := Some L; k_prec := None; k_cov := None |} seed = Ok s ->
  draw FNormal n (map (@List.length R) xi) g = (noise, g') -> shaped n xi noise ->
  exists z, ns_sample G draw s n g = (z, g') /\ moved n xi L noise z.
Proof.
  intros G draw chol prec_chol xi L seed s n g noise g' H D Sh. unfold ns_init, kw_tril in H. cbn in H.
  destruct (lower_cholesky L); [|discriminate]. cbn in H. inversion H; subst. apply mvn_moved; assumption.
Qed.

(* C103 (covariance or precision): the factor is the one torch computes from the matrix *)
Theorem C103_matrix : forall (G : Type) (draw : fam -> nat -> list nat -> G -> list batch * G) (chol prec_chol : mat -> option mat) xi (C : mat) (prec : bool) L seed n g noise g',
  (if prec then prec_chol C else chol C) = Some L ->
  draw FNormal n (map (@List.length R) xi) g = (noise, g') -> shaped n xi noise ->
  exists s z, ns_init chol prec_chol xi
      {| k_sigma := None; k_tril := None; k_prec := if prec then Some C else None; k_cov := if prec then None else Some C |} seed = Ok s /\
    ns_sample G draw s n g = (z, g') /\ moved n xi L noise z.
Proof.
  intros G draw chol prec_chol xi C prec L seed n g noise g' H D Sh.
  destruct (mvn_moved G draw xi L n g noise g' D Sh) as (z & Z1 & Z2).
  exists {| n_loc := xi; n_tril := L; n_seed := seed |}, z.
  split; [|split; [exact Z1|exact Z2]]. unfold ns_init, kw_tril. destruct prec; cbn; rewrite H; reflexivity.
Qed.

(* C103 (sigma): with a standard deviation the noise is just scaled *)
Theorem C103_sigma : forall (G : Type) (draw : fam -> nat -> list nat -> G -> list batch * G) chol prec_chol d xi e tril prec cov seed s n g noise g',
  rect d xi -> xi <> [] ->
  ns_init chol prec_chol xi {| k_sigma := Some e; k_tril := tril; k_prec := prec; k_cov := cov |} seed = Ok s ->
  draw FNormal n (map (@List.length R) xi) g = (noise, g') -> shaped n xi noise ->
  exists z, ns_sample G draw s n g = (z, g') /\ blurred n xi e noise z.
Proof.
  intros G draw chol prec_chol d xi e tril prec cov seed s n g noise g' Hr Hn H D Sh. unfold ns_init, kw_tril in H. cbn in H.
  destruct (lower_cholesky _); [|discriminate]. cbn in H. inversion H; subst. unfold ns_sample. cbn [n_loc n_tril].
  rewrite (rect_last d xi Hr Hn). apply mvn_blurred; assumption.
Qed.

(* C103 (labels): Gaussian labels are blurred, identical labels copied, Bernoulli labels kept or negated; the data are
   drawn first and the labels from the state this leaves *)
Theorem C103_labels_gauss : forall (G : Type) (draw : fam -> nat -> list nat -> G -> list batch * G) coins chol prec_chol dx dy xi y e le seed s n g noise g1 noise' g2,
  rect dx xi -> xi <> [] -> rect dy y -> y <> [] ->
  cl_init chol prec_chol (ANormalNormal (sigma_kw le)) xi y (sigma_kw e) seed = Ok s ->
  draw FNormal n (map (@List.length R) xi) g = (noise, g1) -> shaped n xi noise ->
  draw FNormal n (map (@List.length R) y) g1 = (noise', g2) -> shaped n y noise' ->
  exists z zl, cl_sample G draw coins s n g = (z, zl, g2) /\ blurred n xi e noise z /\ blurred n y le noise' zl.
Proof.
  intros G draw coins chol prec_chol dx dy xi y e le seed s n g noise g1 noise' g2 Rx Nx Ry Ny H D Sh D' Sh'. cbn in H.
  destruct (lower_cholesky _); [|discriminate]. cbn in H. destruct (lower_cholesky _); [|discriminate]. cbn in H. inversion H; subst.
  rewrite (rect_last dx xi Rx Nx), (rect_last dy y Ry Ny) in *.
  destruct (mvn_blurred G draw dx xi e n g noise g1 Rx D Sh) as (z & Z1 & Z2).
  destruct (mvn_blurred G draw dy y le n g1 noise' g2 Ry D' Sh') as (zl & Y1 & Y2).
  exists z, zl. unfold cl_sample, ns_sample. cbn [cl_data cl_lab n_loc n_tril lab_sample]. rewrite Z1, Y1. auto.
Qed.

Theorem C103_labels_bernoulli : forall (G : Type) (draw : fam -> nat -> list nat -> G -> list batch * G) coins chol prec_chol dx xi y e p seed s n g noise g1 b g2,
  rect dx xi -> xi <> [] ->
  cl_init chol prec_chol (ANormalBernouilli p) xi y (sigma_kw e) seed = Ok s ->
  draw FNormal n (map (@List.length R) xi) g = (noise, g1) -> shaped n xi noise ->
  coins p n (map (@List.length R) y) g1 = (b, g2) -> shaped n y b ->
  exists z zl, cl_sample G draw coins s n g = (z, zl, g2) /\ blurred n xi e noise z /\ shaped n y zl /\
    forall i j k, (i < n)%nat -> (j < List.length y)%nat -> (k < List.length (nth j y []))%nat ->
      (nth k (nth j (nth i b []) []) false = true -> at3 zl i j k = nth k (nth j y []) 0) /\
      (nth k (nth j (nth i b []) []) false = false -> at3 zl i j k = - nth k (nth j y []) 0).
Proof.
  intros G draw coins chol prec_chol dx xi y e p seed s n g noise g1 b g2 Rx Nx H D Sh C Shb. cbn in H.
  destruct (assert_ _); [|discriminate]. cbn in H. unfold ns_init in H. rewrite kw_sigma in H.
  destruct (lower_cholesky _); [|discriminate]. cbn in H. inversion H; subst.
  rewrite (rect_last dx xi Rx Nx) in *.
  destruct (mvn_blurred G draw dx xi e n g noise g1 Rx D Sh) as (z & Z1 & Z2).
  destruct Shb as [Sb1 Sb2].
  destruct (flips_values G draw coins p y n g1 b g2 C Sb1 Sb2) as (zl & Y1 & Y2 & Y3).
  exists z, zl. unfold cl_sample, ns_sample. cbn [cl_data cl_lab n_loc n_tril]. rewrite Z1, Y1. split; [reflexivity|].
  split; [exact Z2|]. split; [exact Y2|]. intros i j k Hi Hj Hk. rewrite (Y3 i j k Hi Hj Hk).
  split; intros E; rewrite E; reflexivity.
Qed.

Theorem C103_labels_id : forall (G : Type) (draw : fam -> nat -> list nat -> G -> list batch * G) coins chol prec_chol dx xi y e seed s n g noise g1,
  rect dx xi -> xi <> [] ->
  cl_init chol prec_chol ANormalId xi y (sigma_kw e) seed = Ok s ->
  draw FNormal n (map (@List.length R) xi) g = (noise, g1) -> shaped n xi noise ->
  exists z zl, cl_sample G draw coins s n g = (z, zl, g1) /\ blurred n xi e noise z /\ List.length zl = n /\ forall u, In u zl -> u = y.
Proof.
  intros G draw coins chol prec_chol dx xi y e seed s n g noise g1 Rx Nx H D Sh. cbn in H. unfold ns_init in H. rewrite kw_sigma in H.
  destruct (lower_cholesky _); [|discriminate]. cbn in H. inversion H; subst.
  rewrite (rect_last dx xi Rx Nx) in *.
  destruct (mvn_blurred G draw dx xi e n g noise g1 Rx D Sh) as (z & Z1 & Z2).
  exists z, (repeat y n). unfold cl_sample, ns_sample. cbn [cl_data cl_lab n_loc n_tril lab_sample]. rewrite Z1. split; [reflexivity|].
  split; [exact Z2|]. split; [apply repeat_length|]. intros u Hu. apply repeat_spec in Hu. exact Hu.
Qed.

(* a generator whose noise is a running counter *)
Definition count_draw (f : fam) (n : nat) (sh : list nat) (g : R) : list batch * R :=
  (map (fun i => map (fun d => repeat (g + INR i) d) sh) (seq 0 n), g + INR n).
Definition count_coins (p : R) (n : nat) (sh : list nat) (g : R) : list (list (list bool)) * R :=
  (map (fun i => map (fun d => repeat (Nat.even i) d) sh) (seq 0 n), g + INR n).
Definition no_chol (m : mat) : option mat := None.

Example C103_case : exists s noise g1 noise' g2,
  rect 2 [[1;2];[3;4]] /\ rect 1 [[1];[-1]] /\
  cl_init no_chol no_chol (ANormalNormal (sigma_kw (1/2))) [[1;2];[3;4]] [[1];[-1]] (sigma_kw 2) None = Ok s /\
  count_draw FNormal 2 [2;2]%nat 1 = (noise, g1) /\ shaped 2 [[1;2];[3;4]] noise /\
  count_draw FNormal 2 [1;1]%nat g1 = (noise', g2) /\ shaped 2 [[1];[-1]] noise' /\ at3 noise 1 0 1 = 2.
Proof.
  assert (L : forall d e, (0 < d)%nat -> 0 < e -> lower_cholesky (eye_scaled d e) = true) by (intros; apply eye_valid; assumption).
  eexists _, _, _, _, _. split; [repeat (constructor; try reflexivity)|]. split; [repeat (constructor; try reflexivity)|]. split.
  { unfold cl_init. cbn [sigma_kw k_sigma k_tril k_prec k_cov init_covar bind mvn_tril last_dim List.length].
    rewrite L by (try lia; lra). cbn [bind]. rewrite L by (try lia; lra). reflexivity. }
  split; [reflexivity|]. split; [split; [reflexivity|repeat (constructor; try reflexivity)]|].
  split; [reflexivity|]. split; [split; [reflexivity|repeat (constructor; try reflexivity)]|]. cbn. lra.
Qed.
Example C103_bernoulli_case : exists s b g2,
  cl_init no_chol no_chol (ANormalBernouilli (1/4)) [[1;2];[3;4]] [[1];[-1]] (sigma_kw 2) None = Ok s /\
  count_coins (1/4) 2 [1;1]%nat 0 = (b, g2) /\ shaped 2 [[1];[-1]] b /\
  nth 0 (nth 1 (nth 0 b []) []) false = true /\ nth 0 (nth 1 (nth 1 b []) []) false = false.
Proof.
  eexists _, _, _. split.
  { unfold cl_init. assert (E : Rleb 0 (1/4) && Rleb (1/4) 1 = true) by (apply andb_true_intro; split; apply Rleb_true; lra).
    rewrite E. cbn [assert_ bind]. unfold ns_init. rewrite kw_sigma. cbn [last_dim List.length].
    rewrite (proj2 (eye_valid 2 2 ltac:(lia))) by lra. reflexivity. }
  split; [reflexivity|]. split; [split; [reflexivity|repeat (constructor; try reflexivity)]|]. split; reflexivity.
Qed.

(* ---------- C104 ---------- *)
(* C104 (labelled losses): accepted for positive radii only; data and labels are blurred with the same radius *)
Theorem C104_class : forall (G : Type) (draw : fam -> nat -> list nat -> G -> list batch * G) coins chol prec_chol k dx dy xi y e seed,
  k = KLogistic \/ k = KQuadratic -> rect dx xi -> xi <> [] -> rect dy y -> y <> [] -> (0 < dx)%nat -> (0 < dy)%nat ->
  (e <= 0 -> default_sampler chol prec_chol k xi (Some y) e seed = Raise ValueError) /\
  (0 < e -> exists s, default_sampler chol prec_chol k xi (Some y) e seed = Ok (Some s) /\
    forall n g noise g1 noise' g2,
      draw FNormal n (map (@List.length R) xi) g = (noise, g1) -> shaped n xi noise ->
      draw FNormal n (map (@List.length R) y) g1 = (noise', g2) -> shaped n y noise' ->
      exists z zl, any_sample G draw coins s n g = (finite z, Some (finite zl), g2) /\ blurred n xi e noise z /\ blurred n y e noise' zl).
Proof.
  intros G draw coins chol prec_chol k dx dy xi y e seed Hk Rx Nx Ry Ny Hx Hy.
  pose proof (rect_last _ _ Rx Nx) as Lx. pose proof (rect_last _ _ Ry Ny) as Ly.
  rewrite (default_class chol prec_chol k xi y e seed Hk) by lia. split; intros He.
  - assert (Rltb 0 e = false) as -> by (apply Rltb_false; lra). reflexivity.
  - assert (Rltb 0 e = true) as -> by (apply Rltb_true; lra). eexists. split; [reflexivity|].
    intros n g noise g1 noise' g2 D Sh D' Sh'. rewrite Lx, Ly.
    destruct (mvn_blurred G draw dx xi e n g noise g1 Rx D Sh) as (z & Z1 & Z2).
    destruct (mvn_blurred G draw dy y e n g1 noise' g2 Ry D' Sh') as (zl & Y1 & Y2).
    exists z, zl. unfold any_sample, cl_sample, ns_sample. cbn [cl_data cl_lab n_loc n_tril lab_sample]. rewrite Z1, Y1. auto.
Qed.

(* C104 (newsvendor): the same for data only *)
Theorem C104_newsvendor : forall (G : Type) (draw : fam -> nat -> list nat -> G -> list batch * G) coins chol prec_chol dx xi y e seed,
  rect dx xi -> xi <> [] -> (0 < dx)%nat ->
  (e <= 0 -> default_sampler chol prec_chol KNewsVendor xi y e seed = Raise ValueError) /\
  (0 < e -> exists s, default_sampler chol prec_chol KNewsVendor xi y e seed = Ok (Some s) /\
    forall n g noise g1, draw FNormal n (map (@List.length R) xi) g = (noise, g1) -> shaped n xi noise ->
      exists z, any_sample G draw coins s n g = (finite z, None, g1) /\ blurred n xi e noise z).
Proof.
  intros G draw coins chol prec_chol dx xi y e seed Rx Nx Hx. pose proof (rect_last _ _ Rx Nx) as Lx.
  rewrite default_newsvendor by lia. split; intros He.
  - assert (Rltb 0 e = false) as -> by (apply Rltb_false; lra). reflexivity.
  - assert (Rltb 0 e = true) as -> by (apply Rltb_true; lra). eexists. split; [reflexivity|].
    intros n g noise g1 D Sh. rewrite Lx. destruct (mvn_blurred G draw dx xi e n g noise g1 Rx D Sh) as (z & Z1 & Z2).
    exists z. unfold any_sample, ns_sample. cbn [n_loc n_tril]. rewrite Z1. auto.
Qed.

(* C104 (refuted): the default sampler of the logistic loss, whose labels are -1 or 1, draws other labels *)
Theorem C104_labels_refuted : exists (draw : fam -> nat -> list nat -> R -> list batch * R) coins s z zl g',
  default_sampler no_chol no_chol KLogistic [[1]] (Some [[1]]) (1/10) None = Ok (Some s) /\
  any_sample R draw coins s 1 0 = (z, Some zl, g') /\
  xat3 zl 0 0 0 <> Fin 1 /\ xat3 zl 0 0 0 <> Fin (-1).
Proof.
  exists count_draw, count_coins.
  pose proof (proj2 (C104_class R count_draw count_coins no_chol no_chol KLogistic 1 1 [[1]] [[1]] (1/10) None (or_introl eq_refl)
    ltac:(repeat (constructor; try reflexivity)) ltac:(discriminate) ltac:(repeat (constructor; try reflexivity)) ltac:(discriminate) ltac:(lia) ltac:(lia)) ltac:(lra)) as (s & E & K).
  destruct (K 1%nat 0 _ _ _ _ eq_refl ltac:(split; [reflexivity|repeat (constructor; try reflexivity)]) eq_refl ltac:(split; [reflexivity|repeat (constructor; try reflexivity)])) as (z & zl & Z & _ & [Sh B]).
  exists s, (finite z), (finite zl). eexists. split; [exact E|]. split; [exact Z|].
  assert (V : xat3 (finite zl) 0 0 0 = Fin (1 + 1/10)).
  { specialize (B 0%nat 0%nat 0%nat ltac:(lia) ltac:(cbn; lia) ltac:(cbn; lia)). destruct Sh as [S1 S2].
    destruct zl as [|u [|? ?]]; cbn in S1; try lia. inversion S2 as [|? ? S3 _]; subst. inversion S3 as [|r ? ur ? S4 S5]; subst. inversion S5; subst.
    destruct r as [|a [|? ?]]; cbn in S4; try lia. cbn in B. unfold xat3; cbn. f_equal. rewrite B. lra. }
  rewrite V. split; intros Q; inversion Q; lra.
Qed.

(* C104 (constructors): a loss of the library built without a sampler has none, whatever its class: every use raises *)
Theorem C104_no_sampler : forall (G : Type) draw coins chol prec_chol k has_labels cost n0,
  exists l, concrete_init chol prec_chol k None has_labels = Ok l /\
  forall m n g, sample_pi0 G draw coins l m g = Raise ValueError /\
    generate_zetas G draw coins {| du_loss := l; du_cost := cost; du_own := None; du_n := n0 |} n g = Raise ValueError.
Proof. intros. eexists. split; [reflexivity|]. intros m n g. split; reflexivity. Qed.

(* C104 (refuted): not every loss built with data and no sampler gets the best-effort sampler: the wrapper and, without
   labels, the two labelled losses raise in the constructor, for any data *)
Theorem C104_best_effort_refuted : exists k, forall chol prec_chol has_labels xi y sigma,
  loss_init chol prec_chol k None has_labels (Some xi) y sigma = Raise UserExn.
Proof. exists KWrapped. reflexivity. Qed.

(* C104 (labels required): the two labelled losses cannot be built from data without labels *)
Theorem C104_labels_required : forall chol prec_chol k has_labels xi sigma,
  k = KLogistic \/ k = KQuadratic ->
  loss_init chol prec_chol k None has_labels (Some xi) None sigma = Raise AttributeError.
Proof. intros chol prec_chol k has_labels xi sigma [->| ->]; reflexivity. Qed.

(* C104 (constructor with data): the base constructor uses 1/10 unless told otherwise *)
Theorem C104_constructor_radius : forall (G : Type) draw coins chol prec_chol dx xi sigma has_labels n g noise g1,
  rect dx xi -> xi <> [] -> (0 < dx)%nat -> match sigma with None => True | Some e => 0 < e end ->
  draw FNormal n (map (@List.length R) xi) g = (noise, g1) -> shaped n xi noise ->
  exists l z, loss_init chol prec_chol KNewsVendor None has_labels (Some xi) None sigma = Ok l /\ lo_has_labels l = has_labels /\
    sample_pi0 G draw coins l n g = Ok (finite z, None, g1) /\ blurred n xi (match sigma with None => / 10 | Some e => e end) noise z.
Proof.
  intros G draw coins chol prec_chol dx xi sigma has_labels n g noise g1 Rx Nx Hx Hs D Sh.
  set (e := match sigma with None => 1 / 10 | Some e => e end).
  assert (He : 0 < e) by (unfold e; destruct sigma; [assumption|lra]).
  destruct (proj2 (C104_newsvendor G draw coins chol prec_chol dx xi None e None Rx Nx Hx) He) as (s & E & K).
  destruct (K n g noise g1 D Sh) as (z & Z1 & Z2).
  exists {| lo_sampler := Some (Some s); lo_has_labels := has_labels |}, z. unfold loss_init. fold e. rewrite E. cbn [bind].
  split; [reflexivity|]. split; [reflexivity|]. split; [cbn; rewrite Z1; reflexivity|].
  replace (match sigma with None => / 10 | Some e => e end) with e; [exact Z2|]. unfold e. destruct sigma; [reflexivity|lra].
Qed.

Example C104_case : rect 2 [[1;2];[3;4]] /\ rect 1 [[1];[-1]] /\ 0 < 1/10 /\ exists s,
  default_sampler no_chol no_chol KLogistic [[1;2];[3;4]] (Some [[1];[-1]]) (1/10) (Some 3%Z) = Ok (Some s).
Proof.
  split; [repeat (constructor; try reflexivity)|]. split; [repeat (constructor; try reflexivity)|]. split; [lra|].
  rewrite default_class by (try (left; reflexivity); cbn; lia). assert (Rltb 0 (1/10) = true) as -> by (apply Rltb_true; lra). eexists; reflexivity.
Qed.

(* ---------- C105 ---------- *)
(* how many samples a call asks for: n when positive, the loss' own number otherwise *)
Definition asked (n : option Z) (own : nat) (count : nat) : Prop :=
  match n with
  | Some z => ((0 < z)%Z -> Z.of_nat count = z) /\ ((z <= 0)%Z -> count = own)
  | None => count = own
  end.

(* C105 (last set): after any sequence of settings, deletions and initialisations, the zetas come from the sampler the last
   effective operation left, and none are drawn when there is none *)
Theorem C105_last_set : forall (G : Type) draw coins d ops n g,
  exists count, asked n (du_n d) count /\
  match in_force (lo_has_labels (du_loss d)) (du_cost d) (lo_sampler (du_loss d)) ops with
  | Some (Some s) => generate_zetas G draw coins (sacts d ops) n g = Ok (any_sample G draw coins s count g)
  | Some None => generate_zetas G draw coins (sacts d ops) n g = Raise ValueError
  | None => generate_zetas G draw coins (sacts d ops) n g = Raise AttributeError
  end.
Proof.
  intros. destruct (sacts_in_force ops d) as [E1 E2].
  exists (match n with None => du_n d | Some n => if (n <=? 0)%Z then du_n d else Z.to_nat n end). split.
  - destruct n as [z|]; cbn; [|reflexivity]. split; intros H.
    + assert ((z <=? 0)%Z = false) as -> by (apply Z.leb_gt; lia). lia.
    + assert ((z <=? 0)%Z = true) as -> by (apply Z.leb_le; lia). reflexivity.
  - unfold generate_zetas, get_sampler. rewrite E1, E2. destruct (in_force _ _ _ _) as [[s|]|]; reflexivity.
Qed.

(* C105 (count): as many zetas as asked for, data and labels alike, when torch draws as many as it is asked for *)
Theorem C105_count : forall (G : Type) draw coins d n g z zl g',
  (forall f m sh h, List.length (fst (draw f m sh h)) = m) -> (forall p m sh h, List.length (fst (coins p m sh h)) = m) ->
  generate_zetas G draw coins d n g = Ok (z, zl, g') ->
  asked n (du_n d) (List.length z) /\ match zl with Some l => List.length l = List.length z | None => True end.
Proof.
  intros G draw coins d n g z zl g' Hd Hc. unfold generate_zetas. destruct (get_sampler d) as [s|]; [|discriminate]. cbn [bind].
  set (c := match n with None => du_n d | Some n => if (n <=? 0)%Z then du_n d else Z.to_nat n end).
  intros H. assert (Q : any_sample G draw coins s c g = (z, zl, g')) by congruence. clear H.
  assert (R1 : forall b L m h, List.length (fst (mvn_rsample G draw b L m h)) = m).
  { intros b L m h. unfold mvn_rsample. specialize (Hd FNormal m (map (@List.length R) b) h). destruct (draw _ _ _ _). cbn in *. rewrite map_length. exact Hd. }
  assert (R2 : forall dd m h, List.length (fst (rsample G draw dd m h)) = m).
  { intros [f loc sc|loc] m h; cbn; [|apply repeat_length]. specialize (Hd f m (map (@List.length R) loc) h). destruct (draw _ _ _ _). cbn in *. rewrite map_length. exact Hd. }
  assert (C : List.length z = c /\ match zl with Some l => List.length l = c | None => True end).
  { destruct s as [s|s|s]; cbn in Q.
    - unfold ns_sample in Q. specialize (R1 (n_loc s) (n_tril s) c g). destruct (mvn_rsample _ _ _ _ _ _). inversion Q; subst. cbn in *. unfold finite. rewrite map_length. auto.
    - unfold cl_sample, ns_sample in Q. pose proof (R1 (n_loc (cl_data s)) (n_tril (cl_data s)) c g) as L1.
      destruct (mvn_rsample _ _ (n_loc (cl_data s)) _ _ _) as [z1 h1].
      assert (L2 : List.length (fst (lab_sample G draw coins (cl_lab s) c h1)) = c).
      { destruct (cl_lab s) as [y LL|y|p y]; cbn; [apply R1|apply repeat_length|]. specialize (Hc p c (map (@List.length R) y) h1). destruct (coins _ _ _ _). cbn in *. rewrite map_length. exact Hc. }
      destruct (lab_sample _ _ _ _ _ _). inversion Q; subst. cbn in *. unfold finite. rewrite !map_length. auto.
    - unfold sample in Q. pose proof (R2 (cs_data s) c g) as L1. destruct (rsample _ _ (cs_data s) _ _) as [z1 h1]. destruct (cs_labels s) as [l|].
      + pose proof (R2 l c h1) as L2. destruct (rsample _ _ l _ _). inversion Q; subst. auto.
      + inversion Q; subst. auto. }
  destruct C as [C1 C2]. split.
  - rewrite C1. unfold c. destruct n as [w|]; cbn; [|reflexivity]. split; intros H.
    + assert ((w <=? 0)%Z = false) as -> by (apply Z.leb_gt; lia). lia.
    + assert ((w <=? 0)%Z = true) as -> by (apply Z.leb_le; lia). reflexivity.
  - destruct zl; [congruence|exact I].
Qed.

(* C105 (initialisation): accepted exactly when labels are given to a labelled loss, none to an unlabelled one, and the
   cost has a sampler for them; the sampler returned is then the one used *)
Theorem C105_init : forall d xi y sigma seed,
  (forall s d', init_sampler d xi y sigma seed = Ok (s, d') ->
     (lo_has_labels (du_loss d) = true <-> y <> None) /\ get_sampler d' = Ok s /\ du_own d' = Some s /\ du_n d' = du_n d) /\
  ((lo_has_labels (du_loss d) = true <-> y = None) -> init_sampler d xi y sigma seed = Raise AssertionError) /\
  (forall l, y = Some l -> lo_has_labels (du_loss d) = true ->
     ((exists s d', init_sampler d xi y sigma seed = Ok (s, d')) <-> exists c, labeled_init (du_cost d) xi l (Some sigma) seed = Ok c)) /\
  (y = None -> lo_has_labels (du_loss d) = false ->
     ((exists s d', init_sampler d xi y sigma seed = Ok (s, d')) <-> exists c, nolabels_init (du_cost d) xi (Some sigma) seed = Ok c)).
Proof.
  intros d xi y sigma seed. unfold init_sampler. destruct (lo_has_labels (du_loss d)) eqn:Hl; destruct y as [y|].
  - repeat split; intros; try discriminate; try congruence.
    + destruct (labeled_init _ _ _ _ _); [|discriminate]. cbn in H. inversion H; subst. reflexivity.
    + destruct (labeled_init _ _ _ _ _); [|discriminate]. cbn in H. inversion H; subst. reflexivity.
    + destruct (labeled_init _ _ _ _ _); [|discriminate]. cbn in H. inversion H; subst. reflexivity.
    + exfalso. destruct H as [H _]. specialize (H eq_refl). discriminate.
    + inversion H; subst. destruct H1 as (s & d' & H1). destruct (labeled_init _ _ _ _ _) as [c|]; [eexists; reflexivity|discriminate].
    + inversion H; subst. destruct H1 as [c ->]. cbn. eauto.
  - repeat split; intros; try discriminate; try congruence.
  - repeat split; intros; try discriminate; try congruence.
  - repeat split; intros; try discriminate; try congruence.
    + destruct (nolabels_init _ _ _ _); [|discriminate]. cbn in H. inversion H; subst. reflexivity.
    + destruct (nolabels_init _ _ _ _); [|discriminate]. cbn in H. inversion H; subst. reflexivity.
    + destruct (nolabels_init _ _ _ _); [|discriminate]. cbn in H. inversion H; subst. reflexivity.
    + exfalso. destruct H as [_ H]. specialize (H eq_refl). discriminate.
    + destruct H1 as (s & d' & H1). destruct (nolabels_init _ _ _ _) as [c|]; [eexists; reflexivity|discriminate].
    + destruct H1 as [c ->]. cbn. eauto.
Qed.

(* C105 (the dual loss' own attribute): it plays no role in the draws *)
Theorem C105_own_unread : forall (G : Type) draw coins ops d s n g,
  generate_zetas G draw coins (sacts {| du_loss := du_loss d; du_cost := du_cost d; du_own := s; du_n := du_n d |} ops) n g =
  generate_zetas G draw coins (sacts d ops) n g.
Proof. intros. apply own_unread. Qed.

(* C105 (refuted): after the setter it is not the sampler in use *)
Theorem C105_own_stale_refuted : exists d s, get_sampler (set_sampler d (Some s)) = Ok s /\ du_own d <> Some s /\ du_own (set_sampler d (Some s)) <> Some s.
Proof.
  exists {| du_loss := {| lo_sampler := Some None; lo_has_labels := false |}; du_cost := SNC (Fin 2) (Fin 2); du_own := None; du_n := 3 |},
    (SNormal {| n_loc := [[1]]; n_tril := [[1]]; n_seed := None |}).
  cbn. repeat split; discriminate.
Qed.

(* C105 (iteration): a sampler is an endless iterator of single samples *)
Theorem C105_endless : forall (G : Type) draw coins s g k,
  (forall f m sh h, List.length (fst (draw f m sh h)) = m) -> (forall p m sh h, List.length (fst (coins p m sh h)) = m) ->
  List.length (fst (iterate G draw coins s k g)) = k /\
  forall z zl, In (z, zl) (fst (iterate G draw coins s k g)) -> List.length z = 1%nat.
Proof.
  intros G draw coins s g k Hd Hc. split; [apply iterate_length|].
  revert g. induction k as [|k IH]; intros g z zl H; cbn in H; [contradiction|].
  destruct (any_sample G draw coins s 1 g) as [[z1 zl1] g1] eqn:E.
  specialize (IH g1). destruct (iterate G draw coins s k g1) as [r g2]. cbn [fst] in *. destruct H as [H|H]; [|eapply IH; exact H].
  inversion H; subst. clear IH H.
  pose (d := {| du_loss := {| lo_sampler := Some (Some s); lo_has_labels := false |}; du_cost := SNC NaN NaN; du_own := None; du_n := 1 |}).
  assert (Q : generate_zetas G draw coins d None g = Ok (z, zl, g1)) by (cbn; rewrite E; reflexivity).
  destruct (C105_count G draw coins d None g z zl g1 Hd Hc Q) as [A _]. exact A.
Qed.

(* setting a sampler, failing to initialise (labels for an unlabelled loss), deleting, initialising *)
Example C105_case : exists c s,
  nolabels_init (SNC (Fin 2) (Fin 2)) [[5]] (Some 1) None = Ok c /\ s = SNormal {| n_loc := [[1]]; n_tril := [[1]]; n_seed := None |} /\
  in_force false (SNC (Fin 2) (Fin 2)) (Some None) [OSet (Some s); OInit [[7]] (Some [[1]]) 1 None] = Some (Some s) /\
  in_force false (SNC (Fin 2) (Fin 2)) (Some None) [OSet (Some s); ODel] = None /\
  in_force false (SNC (Fin 2) (Fin 2)) (Some None) [OSet (Some s); ODel; OInit [[5]] None 1 None] = Some (Some (SCost c)).
Proof.
  assert (E : exists c, nolabels_init (SNC (Fin 2) (Fin 2)) [[5]] (Some 1) None = Ok c).
  { unfold nolabels_init, sampler_data. cbn [sc_p sc_power]. rewrite family_22. unfold loc_scale. cbn [eps_default xlt].
    assert (Rltb 0 1 = true) as -> by (apply Rltb_true; lra). eexists; reflexivity. }
  destruct E as [c E]. exists c. eexists. split; [exact E|]. split; [reflexivity|]. cbn [in_force]. rewrite E. repeat split; reflexivity.
Qed.
Example C105_draws_case : (forall f m sh h, List.length (fst (count_draw f m sh h)) = m) /\ (forall p m sh h, List.length (fst (count_coins p m sh h)) = m).
Proof. split; intros; cbn; rewrite map_length, seq_length; reflexivity. Qed.

Print Assumptions C103_factor.
Print Assumptions C103_matrix.
Print Assumptions C103_sigma.
Print Assumptions C103_labels_gauss.
Print Assumptions C103_labels_bernoulli.
Print Assumptions C103_labels_id.
Print Assumptions C104_class.
Print Assumptions C104_newsvendor.
Print Assumptions C104_labels_refuted.
Print Assumptions C104_no_sampler.
Print Assumptions C104_best_effort_refuted.
Print Assumptions C104_constructor_radius.
Print Assumptions C104_labels_required.
Example C104_labels_required_case : KLogistic = KLogistic \/ KLogistic = KQuadratic.
Proof. left. reflexivity. Qed.
Print Assumptions C105_last_set.
Print Assumptions C105_count.
Print Assumptions C105_init.
Print Assumptions C105_own_unread.
Print Assumptions C105_own_stale_refuted.
Print Assumptions C105_endless.

(* the sampler can be deleted exactly once; what is deleted is the loss' sampler, which then cannot be read *)
Theorem C105_delete_once : forall d,
  (lo_sampler (du_loss d) <> None -> exists d', del_sampler d = Ok d' /\ get_sampler d' = Raise AttributeError /\ del_sampler d' = Raise AttributeError) /\
  (lo_sampler (du_loss d) = None -> del_sampler d = Raise AttributeError) /\
  (forall s, exists d', del_sampler (set_sampler d s) = Ok d').
Proof.
  intros d. unfold del_sampler, get_sampler, set_sampler. split; [|split].
  - destruct (lo_sampler (du_loss d)); [intros _|congruence]. eexists. repeat split.
  - intros ->. reflexivity.
  - intros s. eexists. reflexivity.
Qed.
Print Assumptions C105_delete_once.

(* ---------- concrete cases of the theorems above, one each ---------- *)
Lemma count_shaped f n b g : shaped n b (fst (count_draw f n (map (@List.length R) b) g)).
Proof.
  split; [cbn; now rewrite map_length, seq_length|]. cbn. apply Forall_forall. intros u H. apply in_map_iff in H as (i & <- & _).
  induction b; constructor; [apply repeat_length|assumption].
Qed.
Lemma coins_shaped p n b g : shaped n b (fst (count_coins p n (map (@List.length R) b) g)).
Proof.
  split; [cbn; now rewrite map_length, seq_length|]. cbn. apply Forall_forall. intros u H. apply in_map_iff in H as (i & <- & _).
  induction b; constructor; [apply repeat_length|assumption].
Qed.
Lemma low_21 : lower_cholesky [[2; 0]; [1; 3]] = true.
Proof. unfold lower_cholesky. cbn. rewrite (proj2 (Rltb_true 0 2)), (proj2 (Rltb_true 0 3)), (proj2 (Reqb_true 0 0)) by lra. reflexivity. Qed.
Lemma eye_ok d e : (0 < d)%nat -> 0 < e -> lower_cholesky (eye_scaled d e) = true.
Proof. intros. apply eye_valid; assumption. Qed.
Lemma rect_data : rect 2 [[1; 2]; [3; 4]]. Proof. repeat constructor. Qed.
Lemma rect_labels : rect 1 [[1]; [-1]]. Proof. repeat constructor. Qed.
(* a factor with an off-diagonal entry: the second coordinate of the noise is mixed with the first *)
Example C103_factor_case : exists s z g', ns_init no_chol no_chol [[1; 2]; [3; 4]] {| k_sigma := None; k_tril := Some [[2; 0]; [1; 3]]; k_prec := None; k_cov := None |} None = Ok s /\
  ns_sample R count_draw s 2 5 = (z, g') /\ at3 z 1 0 1 = 2 + dot [1; 3] [5 + INR 1; 5 + INR 1].
Proof.
  assert (E : exists s, ns_init no_chol no_chol [[1; 2]; [3; 4]] {| k_sigma := None; k_tril := Some [[2; 0]; [1; 3]]; k_prec := None; k_cov := None |} None = Ok s).
  { unfold ns_init, kw_tril. cbn [init_covar k_sigma k_tril k_prec k_cov bind mvn_tril]. rewrite low_21. eexists; reflexivity. }
  destruct E as [s E]. destruct (C103_factor R count_draw _ _ _ _ _ _ 2 5 _ _ E eq_refl (count_shaped FNormal 2 [[1; 2]; [3; 4]] 5)) as (z & S & _ & M).
  exists s, z. eexists. split; [exact E|]. split; [exact S|]. destruct (M 1%nat 0%nat ltac:(lia) ltac:(simpl; lia)) as [_ M1]. exact (M1 1%nat ltac:(simpl; lia) ltac:(simpl; lia)).
Qed.
(* a factorisation routine that knows one precision matrix *)
Definition one_prec (P : mat) : option mat := Some [[2; 0]; [1; 3]].
Example C103_matrix_case : exists s z g', ns_init no_chol one_prec [[1; 2]; [3; 4]] {| k_sigma := None; k_tril := None; k_prec := Some [[7; 1]; [1; 9]]; k_cov := None |} None = Ok s /\
  ns_sample R count_draw s 2 5 = (z, g') /\ at3 z 1 0 1 = 2 + dot [1; 3] [5 + INR 1; 5 + INR 1].
Proof.
  destruct (C103_matrix R count_draw no_chol one_prec [[1; 2]; [3; 4]] [[7; 1]; [1; 9]] true [[2; 0]; [1; 3]] None 2 5 _ _ eq_refl eq_refl (count_shaped FNormal 2 [[1; 2]; [3; 4]] 5)) as (s & z & E & S & _ & M).
  exists s, z. eexists. split; [exact E|]. split; [exact S|]. destruct (M 1%nat 0%nat ltac:(lia) ltac:(simpl; lia)) as [_ M1]. exact (M1 1%nat ltac:(simpl; lia) ltac:(simpl; lia)).
Qed.
Example C103_sigma_case : exists s z g', ns_init no_chol no_chol [[1; 2]; [3; 4]] {| k_sigma := Some 2; k_tril := Some [[0]]; k_prec := None; k_cov := None |} None = Ok s /\
  ns_sample R count_draw s 2 5 = (z, g') /\ at3 z 1 0 1 = 2 + 2 * (5 + INR 1).
Proof.
  assert (E : exists s, ns_init no_chol no_chol [[1; 2]; [3; 4]] {| k_sigma := Some 2; k_tril := Some [[0]]; k_prec := None; k_cov := None |} None = Ok s).
  { unfold ns_init, kw_tril. cbn [init_covar k_sigma k_tril k_prec k_cov bind mvn_tril last_dim List.length]. rewrite eye_ok by (try lia; lra). eexists; reflexivity. }
  destruct E as [s E]. destruct (C103_sigma R count_draw _ _ 2 _ _ _ _ _ _ _ 2 5 _ _ rect_data ltac:(discriminate) E eq_refl (count_shaped FNormal 2 [[1; 2]; [3; 4]] 5)) as (z & S & _ & M).
  exists s, z. eexists. split; [exact E|]. split; [exact S|]. exact (M 1%nat 0%nat 1%nat ltac:(lia) ltac:(simpl; lia) ltac:(simpl; lia)).
Qed.
Example C103_labels_gauss_case : exists s z zl g', cl_init no_chol no_chol (ANormalNormal (sigma_kw (1/2))) [[1;2];[3;4]] [[1];[-1]] (sigma_kw 2) None = Ok s /\
  cl_sample R count_draw count_coins s 2 5 = (z, zl, g') /\ at3 z 1 0 1 = 2 + 2 * (5 + INR 1) /\ at3 zl 1 1 0 = -1 + 1 / 2 * (5 + INR 2 + INR 1).
Proof.
  destruct C103_case as (s & _ & _ & _ & _ & _ & _ & E & _).
  destruct (C103_labels_gauss R count_draw count_coins _ _ 2 1 _ _ _ _ _ _ 2 5 _ _ _ _ rect_data ltac:(discriminate) rect_labels ltac:(discriminate) E eq_refl (count_shaped FNormal 2 [[1; 2]; [3; 4]] 5) eq_refl
    (count_shaped FNormal 2 [[1]; [-1]] (5 + INR 2))) as (z & zl & S & [_ M] & [_ ML]).
  exists s, z, zl. eexists. split; [exact E|]. split; [exact S|]. split; [exact (M 1%nat 0%nat 1%nat ltac:(lia) ltac:(simpl; lia) ltac:(simpl; lia))|].
  exact (ML 1%nat 1%nat 0%nat ltac:(lia) ltac:(simpl; lia) ltac:(simpl; lia)).
Qed.
Example C103_labels_bernoulli_case : exists s z zl g', cl_init no_chol no_chol (ANormalBernouilli (1/4)) [[1;2];[3;4]] [[1];[-1]] (sigma_kw 2) None = Ok s /\
  cl_sample R count_draw count_coins s 2 5 = (z, zl, g') /\ at3 zl 0 1 0 = -1 /\ at3 zl 1 1 0 = - -1.
Proof.
  destruct C103_bernoulli_case as (s & _ & _ & E & _).
  destruct (C103_labels_bernoulli R count_draw count_coins _ _ 2 _ _ _ _ _ _ 2 5 _ _ _ _ rect_data ltac:(discriminate) E eq_refl (count_shaped FNormal 2 [[1; 2]; [3; 4]] 5) eq_refl
    (coins_shaped (1/4) 2 [[1]; [-1]] (5 + INR 2))) as (z & zl & S & _ & _ & M).
  exists s, z, zl. eexists. split; [exact E|]. split; [exact S|]. split.
  - apply (M 0%nat 1%nat 0%nat); solve [simpl; lia|reflexivity].
  - apply (M 1%nat 1%nat 0%nat); solve [simpl; lia|reflexivity].
Qed.
Example C103_labels_id_case : exists s z zl g', cl_init no_chol no_chol ANormalId [[1;2];[3;4]] [[1];[-1]] (sigma_kw 2) None = Ok s /\
  cl_sample R count_draw count_coins s 2 5 = (z, zl, g') /\ List.length zl = 2%nat /\ forall u, In u zl -> u = [[1]; [-1]].
Proof.
  assert (E : exists s, cl_init no_chol no_chol ANormalId [[1;2];[3;4]] [[1];[-1]] (sigma_kw 2) None = Ok s).
  { unfold cl_init, ns_init. rewrite kw_sigma. cbn [last_dim List.length]. rewrite eye_ok by (try lia; lra). eexists; reflexivity. }
  destruct E as [s E]. destruct (C103_labels_id R count_draw count_coins _ _ 2 _ _ _ _ _ 2 5 _ _ rect_data ltac:(discriminate) E eq_refl (count_shaped FNormal 2 [[1; 2]; [3; 4]] 5)) as (z & zl & S & _ & L & M).
  exists s, z, zl. eexists. split; [exact E|]. split; [exact S|]. split; [exact L|exact M].
Qed.
Example C104_class_case : default_sampler no_chol no_chol KQuadratic [[1;2];[3;4]] (Some [[1];[-1]]) 0 None = Raise ValueError /\
  exists s, default_sampler no_chol no_chol KQuadratic [[1;2];[3;4]] (Some [[1];[-1]]) (1 / 10) None = Ok (Some s) /\
  exists z zl g', any_sample R count_draw count_coins s 2 5 = (finite z, Some (finite zl), g') /\ at3 zl 1 1 0 = -1 + 1 / 10 * (5 + INR 2 + INR 1).
Proof.
  split; [apply (C104_class R count_draw count_coins no_chol no_chol KQuadratic 2 1); try lra; try lia; try apply rect_data; try apply rect_labels; try discriminate; right; reflexivity|].
  destruct (C104_class R count_draw count_coins no_chol no_chol KQuadratic 2 1 [[1;2];[3;4]] [[1];[-1]] (1 / 10) None) as [_ H];
    [right; reflexivity|apply rect_data|discriminate|apply rect_labels|discriminate|lia|lia|].
  destruct (H ltac:(lra)) as (s & E & K). exists s. split; [exact E|].
  destruct (K 2%nat 5 _ _ _ _ eq_refl (count_shaped FNormal 2 [[1; 2]; [3; 4]] 5) eq_refl (count_shaped FNormal 2 [[1]; [-1]] (5 + INR 2))) as (z & zl & S & _ & [_ ML]).
  exists z, zl. eexists. split; [exact S|]. exact (ML 1%nat 1%nat 0%nat ltac:(lia) ltac:(simpl; lia) ltac:(simpl; lia)).
Qed.
Example C104_newsvendor_case : exists s, default_sampler no_chol no_chol KNewsVendor [[1;2];[3;4]] None (1 / 10) None = Ok (Some s) /\
  exists z g', any_sample R count_draw count_coins s 2 5 = (finite z, None, g') /\ at3 z 1 0 1 = 2 + 1 / 10 * (5 + INR 1).
Proof.
  destruct (C104_newsvendor R count_draw count_coins no_chol no_chol 2 [[1;2];[3;4]] None (1 / 10) None rect_data ltac:(discriminate) ltac:(lia)) as [_ H].
  destruct (H ltac:(lra)) as (s & E & K). exists s. split; [exact E|].
  destruct (K 2%nat 5 _ _ eq_refl (count_shaped FNormal 2 [[1; 2]; [3; 4]] 5)) as (z & S & [_ M]).
  exists z. eexists. split; [exact S|]. exact (M 1%nat 0%nat 1%nat ltac:(lia) ltac:(simpl; lia) ltac:(simpl; lia)).
Qed.
(* the default radius of the constructor is a tenth *)
Example C104_constructor_radius_case : exists l z g', loss_init no_chol no_chol KNewsVendor None false (Some [[1;2];[3;4]]) None None = Ok l /\
  sample_pi0 R count_draw count_coins l 2 5 = Ok (finite z, None, g') /\ at3 z 1 0 1 = 2 + / 10 * (5 + INR 1).
Proof.
  destruct (C104_constructor_radius R count_draw count_coins no_chol no_chol 2 [[1;2];[3;4]] None false 2 5 _ _ rect_data ltac:(discriminate) ltac:(lia) I eq_refl (count_shaped FNormal 2 [[1; 2]; [3; 4]] 5)) as (l & z & E & _ & S & [_ M]).
  exists l, z. eexists. split; [exact E|]. split; [exact S|]. exact (M 1%nat 0%nat 1%nat ltac:(lia) ltac:(simpl; lia) ltac:(simpl; lia)).
Qed.
Definition nsam : sampler := SNormal {| n_loc := [[1]]; n_tril := [[1]]; n_seed := None |}.
Definition dual0 : dual := {| du_loss := {| lo_sampler := Some (Some nsam); lo_has_labels := false |}; du_cost := SNC (Fin 2) (Fin 2); du_own := None; du_n := 4%nat |}.
Example C105_count_case : exists z zl g', generate_zetas R count_draw count_coins dual0 (Some 3%Z) 0 = Ok (z, zl, g') /\ Z.of_nat (List.length z) = 3%Z /\
  exists z2 zl2 g2, generate_zetas R count_draw count_coins dual0 (Some (-1)%Z) 0 = Ok (z2, zl2, g2) /\ List.length z2 = 4%nat.
Proof.
  eexists _, _, _. split; [reflexivity|]. split.
  - refine (proj1 (proj1 (C105_count R count_draw count_coins dual0 (Some 3%Z) 0 _ _ _ (proj1 C105_draws_case) (proj2 C105_draws_case) eq_refl)) _). lia.
  - eexists _, _, _. split; [reflexivity|].
    refine (proj2 (proj1 (C105_count R count_draw count_coins dual0 (Some (-1)%Z) 0 _ _ _ (proj1 C105_draws_case) (proj2 C105_draws_case) eq_refl)) _). lia.
Qed.
Example C105_init_case : exists s d', init_sampler dual0 [[5]] None 1 None = Ok (s, d') /\ get_sampler d' = Ok s /\ init_sampler dual0 [[5]] (Some [[1]]) 1 None = Raise AssertionError.
Proof.
  destruct C105_case as (c & _ & E & _).
  destruct (proj2 (proj2 (proj2 (C105_init dual0 [[5]] None 1 None))) eq_refl eq_refl) as [_ H]. destruct (H (ex_intro _ c E)) as (s & d' & I).
  exists s, d'. split; [exact I|]. split; [exact (proj1 (proj2 (proj1 (C105_init dual0 [[5]] None 1 None) _ _ I)))|].
  apply (C105_init dual0 [[5]] (Some [[1]]) 1 None). split; discriminate.
Qed.
Example C105_endless_case : List.length (fst (iterate R count_draw count_coins nsam 7 0)) = 7%nat.
Proof. apply C105_endless; apply C105_draws_case. Qed.
Example C105_delete_once_case : exists d', del_sampler dual0 = Ok d' /\ get_sampler d' = Raise AttributeError /\ del_sampler d' = Raise AttributeError.
Proof. apply C105_delete_once. discriminate. Qed.
