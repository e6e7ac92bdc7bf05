(* Proofs about predictions and evaluations. *)
From Coq Require Import Reals List Bool ZArith Arith String Lra Lia.
From Verif Require Import PyBase RList XReal Tensor Loss_Model Loss_Spec Loss_Proofs Estim_Model Predict_Model.
Import ListNotations.
Local Open Scope R_scope.

(* ---------- expit ---------- *)
Lemma expit_range s : 0 < expit s < 1.
Proof.
  unfold expit. pose proof (exp_pos (- s)). split; [apply Rdiv_lt_0_compat; lra|]. apply Rmult_lt_reg_r with (1 + exp (- s)); [lra|].
  unfold Rdiv. rewrite Rmult_assoc, Rinv_l, !Rmult_1_l by lra. lra.
Qed.
Lemma expit_half s : 1 / 2 <= expit s <-> 0 <= s.
Proof.
  unfold expit. pose proof (exp_pos (- s)) as P.
  assert (E : 1 / 2 <= 1 / (1 + exp (- s)) <-> exp (- s) <= 1).
  { split; intros H.
    - apply Rmult_le_compat_r with (r := 2 * (1 + exp (- s))) in H; [|lra]. replace (1 / (1 + exp (- s)) * (2 * (1 + exp (- s)))) with 2 in H by (field; lra). lra.
    - apply Rmult_le_reg_r with (2 * (1 + exp (- s))); [lra|]. replace (1 / (1 + exp (- s)) * (2 * (1 + exp (- s)))) with 2 by (field; lra). lra. }
  rewrite E. rewrite <- exp_0. split; intros H.
  - destruct (Rle_dec 0 s) as [|N]; [assumption|]. exfalso. assert (exp 0 < exp (- s)) by (apply exp_increasing; lra). lra.
  - destruct H as [H| <-]; [left; apply exp_increasing; lra|rewrite Ropp_0; lra].
Qed.

(* ---------- scores ---------- *)
Definition score (w : vec) (i : option R) (x : vec) : R := dot w x + match i with Some b => b | None => 0 end.

Lemma concat_len1 (X : list vec) : Forall (fun r => List.length r = 1%nat) X -> List.concat X = map (fun r => hd 0 r) X.
Proof. induction 1 as [|r X H F IH]; [reflexivity|]. destruct r as [|a [|]]; try discriminate. simpl. rewrite IH. reflexivity. Qed.

Lemma np_dot_torch w X : Forall (fun r => List.length r = List.length w) X ->
  exists t, np_dot (List.length w) X (lg_coef_torch w) = Ok t /\ dat t = map (fun x => dot w x) X /\
            shp t = (if (List.length w =? 1)%nat then [List.length X; 1%nat] else [List.length X]).
Proof.
  intros F. unfold np_dot, lg_coef_torch, squeeze. simpl. destruct (List.length w =? 1)%nat eqn:E; simpl.
  - apply Nat.eqb_eq in E. rewrite E in *. eexists. split; [reflexivity|]. simpl. split; [|reflexivity]. rewrite (concat_len1 X F), map_map. apply map_ext_in. intros x Hx.
    rewrite Forall_forall in F. specialize (F x Hx). destruct x as [|a [|]]; try discriminate. destruct w as [|b [|]]; try discriminate. unfold dot. simpl. ring.
  - rewrite Nat.eqb_refl. eexists. split; [reflexivity|]. simpl. split; [|reflexivity]. apply map_ext. intros x. apply dot_comm.
Qed.
Lemma np_dot_dedicated w X : np_dot (List.length w) X (lg_coef_dedicated w) = Ok (mkT [List.length X] (map (fun x => dot w x) X)).
Proof. unfold np_dot, lg_coef_dedicated. simpl. rewrite Nat.eqb_refl. do 2 f_equal. apply map_ext. intros x. apply dot_comm. Qed.

Lemma proba2_of t i : forall w (X : list vec), dat t = map (fun x => dot w x) X ->
  exists p, match i with Some b => Ok (tmap expit (addc b t)) | None => Ok (tmap expit t) end = Ok p /\ dat p = map (fun x => expit (score w i x)) X /\ shp p = shp t.
Proof.
  intros w X E. destruct i as [b|]; eexists; (split; [reflexivity|]); simpl; rewrite E, !map_map; (split; [|reflexivity]); apply map_ext; intros x; unfold score; [reflexivity|]. rewrite Rplus_0_r. reflexivity.
Qed.

(* any of the two forms of coef_ *)
Definition coef_of (torch : bool) (w : vec) : tensor := if torch then lg_coef_torch w else lg_coef_dedicated w.

Lemma proba2_dat torch w i X : Forall (fun r => List.length r = List.length w) X ->
  exists p, predict_proba_2class (List.length w) (coef_of torch w) i X = Ok p /\ dat p = map (fun x => expit (score w i x)) X /\
            column_or_1d (shp p) = true.
Proof.
  intros F. unfold predict_proba_2class. destruct torch; simpl.
  - destruct (np_dot_torch w X F) as (t & -> & D & S). simpl. destruct (proba2_of t i w X D) as (p & E & Dp & Sp). exists p. split; [assumption|]. split; [assumption|].
    rewrite Sp, S. destruct (List.length w =? 1)%nat; reflexivity.
  - rewrite np_dot_dedicated. simpl. destruct (proba2_of (mkT [List.length X] (map (fun x => dot w x) X)) i w X eq_refl) as (p & E & Dp & Sp). exists p. split; [assumption|]. split; [assumption|].
    rewrite Sp. reflexivity.
Qed.

Lemma predict_two torch w i c0 c1 X : Forall (fun r => List.length r = List.length w) X ->
  predict_binary (List.length w) (coef_of torch w) i [c0; c1] X = Ok ([List.length X], map (fun x => if Rle_dec 0 (score w i x) then c1 else c0) X).
Proof.
  intros F. unfold predict_binary. destruct (proba2_dat torch w i X F) as (p & -> & D & C). simpl. rewrite C, D, !map_map, map_length. do 2 f_equal. apply map_ext. intros x.
  destruct (Rleb (1 / 2) (expit (score w i x))) eqn:E.
  - rewrite Rleb_true in E. apply expit_half in E. destruct (Rle_dec 0 (score w i x)); [reflexivity|contradiction].
  - rewrite Rleb_false in E. destruct (Rle_dec 0 (score w i x)) as [H|]; [|reflexivity]. apply expit_half in H. lra.
Qed.

Lemma flat_map_concat {A B} (f : A -> list B) l : flat_map f l = List.concat (map f l).
Proof. apply flat_map_concat_map. Qed.

Lemma proba_binary_vec w b X torch : Forall (fun r => List.length r = List.length w) X -> (torch = false \/ List.length w <> 1%nat) ->
  predict_proba_binary (List.length w) (coef_of torch w) (Some b) X
  = Ok (batch [List.length X] 2 (map (fun x => [1 - expit (dot w x + b); expit (dot w x + b)]) X)).
Proof.
  intros F H. unfold predict_proba_binary.
  assert (E : exists t, np_dot (List.length w) X (coef_of torch w) = Ok t /\ dat t = map (fun x => dot w x) X /\ shp t = [List.length X]).
  { destruct torch; simpl.
    - destruct H as [H|H]; [discriminate|]. destruct (np_dot_torch w X F) as (t & E & D & S). exists t. apply Nat.eqb_neq in H. rewrite H in S. auto.
    - eexists. split; [apply np_dot_dedicated|]. split; reflexivity. }
  destruct E as (t & -> & D & S). cbn [bind]. unfold np_plus. cbn [bind]. unfold vstack2_T. simpl shp. rewrite S. unfold batch. simpl. rewrite D, flat_map_concat, !map_map. reflexivity.
Qed.

Lemma proba_binary_d1 w b X : List.length w = 1%nat -> Forall (fun r => List.length r = List.length w) X ->
  predict_proba_binary 1 (lg_coef_torch w) (Some b) X
  = Ok (mkT [1%nat; (2 * List.length X)%nat] (map (fun x => 1 - expit (dot w x + b)) X ++ map (fun x => expit (dot w x + b)) X)).
Proof.
  intros L F. unfold predict_proba_binary. destruct (np_dot_torch w X F) as (t & E & D & S). rewrite L in E, S. simpl Nat.eqb in S. rewrite E. cbn [bind]. unfold np_plus. cbn [bind]. unfold vstack2_T.
  simpl shp. rewrite S. cbn [seq flat_map]. rewrite app_nil_r.
  assert (C : map (fun i => nth (i * 1 + 0) (dat (tmap expit (addc b t))) 0) (seq 0 (List.length X)) = map (fun x => expit (dot w x + b)) X).
  { simpl dat. rewrite D, !map_map. clear. induction X as [|x X IH]; [reflexivity|]. simpl. f_equal. rewrite <- seq_shift, map_map. exact IH. }
  rewrite C, map_map. reflexivity.
Qed.

(* ---------- data of another width ---------- *)
(* np_dot refuses it unless coef_ is 0-dimensional, which happens exactly for the torch solvers and one feature *)
Lemma np_dot_width torch w d X : List.length w <> d -> (torch = false \/ List.length w <> 1%nat) -> np_dot d X (coef_of torch w) = Raise ValueError.
Proof.
  intros N H. unfold np_dot, coef_of, lg_coef_torch, lg_coef_dedicated, squeeze. apply Nat.eqb_neq in N. destruct torch; simpl.
  - destruct H as [H|H]; [discriminate|]. apply Nat.eqb_neq in H. rewrite H. simpl. rewrite N. reflexivity.
  - rewrite N. reflexivity.
Qed.
Lemma np_dot_scalar a d X : np_dot d X (lg_coef_torch [a]) = Ok (mkT [List.length X; d] (map (fun c => c * a) (List.concat X))).
Proof. reflexivity. Qed.

Lemma nth_concat_width (X : list vec) d i j : widths d X -> (i < List.length X)%nat -> (j < d)%nat -> nth (i * d + j) (List.concat X) 0 = nth j (nth i X []) 0.
Proof.
  intros W. revert i. induction W as [|x X L W IH]; intros i Hi Hj; simpl in Hi; [lia|]. destruct i as [|i]; simpl List.concat.
  - rewrite app_nth1 by (rewrite L; simpl; lia). reflexivity.
  - rewrite app_nth2 by (rewrite L; simpl; lia). rewrite L. replace (S i * d + j - d)%nat with (i * d + j)%nat by (simpl; lia). apply IH; lia.
Qed.

Lemma proba_binary_none w X torch : Forall (fun r => List.length r = List.length w) X -> predict_proba_binary (List.length w) (coef_of torch w) None X = Raise TypeError.
Proof.
  intros F. unfold predict_proba_binary. destruct torch; simpl.
  - destruct (np_dot_torch w X F) as (t & -> & _). reflexivity.
  - rewrite np_dot_dedicated. reflexivity.
Qed.

(* ---------- several classes ---------- *)
Definition mscores (weights : list vec) (bias : vec) (x : vec) : vec := map2 (fun w b => dot w x + b) weights bias.

Lemma mscores_length weights bias x : List.length weights = List.length bias -> List.length (mscores weights bias x) = List.length weights.
Proof. intros L. apply map2_length. exact L. Qed.

Lemma proba_multi weights bias d X : List.length weights = List.length bias -> widths d X ->
  predict_proba_multi weights bias d d X = Ok (batch [List.length X] (List.length weights) (map (mscores weights bias) X)).
Proof.
  intros L W. unfold predict_proba_multi, linear. unfold vec in *. rewrite (trows_batch [List.length X] d X W) by (simpl; lia). unfold batch. cbn [shp].
  rewrite last_snoc, Nat.eqb_refl, removelast_snoc. do 2 f_equal. f_equal. apply map_ext. intros x. unfold mscores.
  revert bias L. induction weights as [|w weights IH]; intros [|b bias] L; simpl in *; try discriminate; [reflexivity|]. rewrite (dot_comm x), IH by congruence. reflexivity.
Qed.

Lemma row_max_ge r : forall a, In a r -> a <= row_max r.
Proof.
  destruct r as [|a0 r]; intros a H; [destruct H|]. simpl.
  assert (G : forall r a0, a0 <= fold_left Rmax r a0 /\ forall a, In a r -> a <= fold_left Rmax r a0).
  { clear. induction r as [|b r IH]; intros a0; simpl; [split; [lra|contradiction]|]. destruct (IH (Rmax a0 b)) as [A B]. pose proof (Rmax_l a0 b). pose proof (Rmax_r a0 b). split; [lra|].
    intros a [<- |Ha]; [lra|auto]. }
  destruct (G r a0) as [A B]. destruct H as [<- |H]; [exact A|auto].
Qed.
Lemma row_max_in r : r <> [] -> In (row_max r) r.
Proof.
  destruct r as [|a r]; [congruence|intros _]. simpl. revert a. induction r as [|b r IH]; intros a; simpl; [auto|].
  destruct (IH (Rmax a b)) as [H|H]; [|auto]. rewrite <- H. destruct (Rmax_case a b (fun x => x = a \/ x = b)); auto.
Qed.

(* index i carries the largest score, and smaller indices smaller ones *)
Definition first_best (r : vec) (i : nat) : Prop :=
  (i < List.length r)%nat /\ (forall j, (j < List.length r)%nat -> nth j r 0 <= nth i r 0) /\ (forall j, (j < i)%nat -> nth j r 0 < nth i r 0).

Lemma first_true_spec l i : first_true l = Some i -> (i < List.length l)%nat /\ nth i l false = true /\ forall j, (j < i)%nat -> nth j l false = false.
Proof.
  revert i. induction l as [|b l IH]; intros i; simpl; [discriminate|]. destruct b.
  - intros E. injection E as <-. split; [lia|]. split; [reflexivity|]. intros; lia.
  - destruct (first_true l) as [k|]; simpl; [|discriminate]. intros E. injection E as <-. destruct (IH k eq_refl) as (A & B & C). split; [lia|]. split; [exact B|].
    intros [|j] Hj; [reflexivity|]. apply C. lia.
Qed.
Lemma first_true_some l : In true l -> exists i, first_true l = Some i.
Proof. induction l as [|b l IH]; intros H; [destruct H|]. simpl. destruct b; [eauto|]. destruct H as [H|H]; [discriminate|]. destruct (IH H) as [i ->]. simpl. eauto. Qed.

Lemma pick_spec r : r <> [] -> exists i, first_true (map (fun a => Rleb (row_max r) a) r) = Some i /\ first_best r i.
Proof.
  intros N. destruct (first_true_some (map (fun a => Rleb (row_max r) a) r)) as [i E].
  { apply in_map_iff. exists (row_max r). split; [rewrite Rleb_true; lra|apply row_max_in; exact N]. }
  exists i. split; [exact E|]. apply first_true_spec in E as (A & B & C). rewrite map_length in A.
  assert (G : forall j, (j < List.length r)%nat -> nth j (map (fun a => Rleb (row_max r) a) r) false = Rleb (row_max r) (nth j r 0)).
  { intros j Hj. rewrite (nth_indep _ false (Rleb (row_max r) 0)) by (rewrite map_length; exact Hj). apply (map_nth (fun a => Rleb (row_max r) a)). }
  rewrite G in B by exact A. rewrite Rleb_true in B. split; [exact A|]. split.
  - intros j Hj. apply Rle_trans with (row_max r); [apply row_max_ge, nth_In; exact Hj|exact B].
  - intros j Hj. specialize (C j Hj). rewrite G in C by lia. rewrite Rleb_false in C. apply Rlt_le_trans with (row_max r); [exact C|exact B].
Qed.

Lemma first_best_unique r i j : first_best r i -> first_best r j -> i = j.
Proof.
  intros (A1 & B1 & C1) (A2 & B2 & C2). destruct (lt_eq_lt_dec i j) as [[H|H]|H]; [|exact H|].
  - specialize (C2 i H). specialize (B1 j A2). lra.
  - specialize (C1 j H). specialize (B2 i A1). lra.
Qed.

Lemma predict_many weights bias d classes X : weights <> [] -> List.length weights = List.length bias -> widths d X ->
  exists picks, predict_multi weights bias d d classes X = Ok ([List.length X; 1%nat], map (fun i => nth i classes 0%Z) picks) /\
                Forall2 (fun x i => first_best (mscores weights bias x) i) X picks.
Proof.
  intros N L W. unfold predict_multi. rewrite proba_multi by assumption. cbn [bind].
  assert (Wm : widths (List.length weights) (map (mscores weights bias) X)) by (apply Forall_map, Forall_forall; intros; apply mscores_length; exact L).
  rewrite (trows_batch [List.length X] (List.length weights) _ Wm) by (rewrite map_length; simpl; unfold vec in *; lia). rewrite !map_length, map_map.
  assert (Q : exists picks, map (fun x => first_true (map (fun a => Rleb (row_max (mscores weights bias x)) a) (mscores weights bias x))) X = map Some picks /\
                Forall2 (fun x i => first_best (mscores weights bias x) i) X picks).
  { clear W Wm. induction X as [|x X IH]; [exists []; split; [reflexivity|constructor]|]. destruct IH as (ps & E & F).
    assert (Nx : mscores weights bias x <> []).
    { intros E0. pose proof (mscores_length weights bias x L) as Lx. rewrite E0 in Lx. destruct weights; [congruence|discriminate]. }
    destruct (pick_spec _ Nx) as (i & Ei & Bi). exists (i :: ps). split; [simpl; rewrite Ei, E; reflexivity|constructor; assumption]. }
  destruct Q as (picks & -> & F). exists picks. split; [|exact F].
  assert (B : existsb (fun o => match o with None => true | Some _ => false end) (map Some picks) = false) by (clear; induction picks; simpl; auto).
  rewrite B, map_map. reflexivity.
Qed.

(* ---------- eval ---------- *)
Lemma unlabelled_value loss w c d k g xs : w_reg w = Some c -> w_has_labels w = false -> w_reduce w = true -> (0 < k)%nat -> (forall x, List.length (g x) = k) -> rowwise loss d k g ->
  widths d xs -> exists t, w_value loss w (batch [List.length xs] d xs) None = Ok t /\ dat t = map (fun x => rmean (g x) + c) xs.
Proof.
  intros Hc HL Hr K Hg Hl W. unfold w_value. rewrite HL, !batch_dim. simpl Nat.ltb. simpl Nat.eqb. cbv iota. rewrite (flat_unlabelled loss w c Hc d k g Hl xs W). cbn [bind].
  eexists. split; [reflexivity|]. pose proof (reduce_unlabelled w c k g Hr K Hg xs) as E. unfold vec in *. rewrite E. unfold squeeze, per_sample, batch. simpl. apply concat_singletons.
Qed.

Lemma nv_eval_torch solver k u theta d xs : contains "entropic" solver = true -> (0 < d)%nat -> widths d xs ->
  nv_eval solver k u theta (batch [List.length xs] d xs) = Ok (rmean (map (fun x => rmean (map (fun a => k * theta - u * Rmin theta a) x)) xs)).
Proof.
  intros H D W. unfold nv_eval. rewrite H.
  destruct (unlabelled_value (fun xi _ => Ok (nv_forward k u theta xi)) (est_wrapped false None [[theta]]) 0 d 1
    (fun x => [rmean (map (fun a => k * theta - u * Rmin theta a) x)]) xs eq_refl eq_refl eq_refl ltac:(lia) ltac:(intros; reflexivity)) as (t & E & Dt).
  - intros ys Wy. rewrite (nv_forward_batch k u theta d [List.length ys] ys D Wy) by (simpl; lia). unfold per_sample. rewrite map_map. reflexivity.
  - exact W.
  - rewrite E. cbn [bind]. unfold full_mean. rewrite Dt. do 2 f_equal. apply map_ext. intros x. unfold rmean at 1. simpl. field.
Qed.

Lemma rsum_concat (l : list (list R)) : rsum (List.concat l) = rsum (map rsum l).
Proof. induction l as [|a l IH]; [reflexivity|]. simpl. rewrite rsum_app, IH. reflexivity. Qed.

Lemma rmean_concat d (l : list (list R)) : widths d l -> l <> [] -> (0 < d)%nat -> rmean (List.concat l) = rmean (map rmean l).
Proof.
  intros W N D. assert (Dp : 0 < INR d) by (apply lt_0_INR; exact D). pose proof (INR_length_pos l N) as Np.
  assert (E1 : INR (List.length (List.concat l)) = INR (List.length l) * INR d).
  { clear N Np. induction W as [|x l H W IH]; [simpl; ring|]. cbn [List.concat]. rewrite app_length, plus_INR, IH, H. cbn [List.length]. rewrite S_INR. ring. }
  assert (E2 : rsum (map rmean l) = rsum (map rsum l) / INR d).
  { clear N Np E1. induction W as [|x l H W IH]; [simpl; unfold Rdiv; ring|]. cbn [map rsum]. rewrite IH. unfold rmean. rewrite H. field. lra. }
  unfold rmean at 1 2. rewrite rsum_concat, E1, E2, map_length. field. lra.
Qed.

Lemma nv_eval_dedicated k u theta d xs : (0 < d)%nat -> widths d xs -> xs <> [] ->
  nv_eval "dedicated" k u theta (batch [List.length xs] d xs) = Ok (rmean (map (fun x => rmean (map (fun a => k * theta - u * Rmin theta a) x)) xs)).
Proof.
  intros D W N. unfold nv_eval. simpl contains. cbv iota. simpl String.eqb. cbv iota. unfold full_mean, tmap, batch. cbn [dat]. rewrite concat_map. f_equal.
  rewrite (rmean_concat d), map_map; auto.
  - apply widths_map. exact W.
  - destruct xs; [congruence|discriminate].
Qed.

Lemma rmin_mean theta x : x <> [] -> rmean (map (Rmin theta) x) <= Rmin theta (rmean x).
Proof.
  intros N. apply Rmin_glb.
  - apply Rle_trans with (rmean (map (fun _ => theta) x)); [apply rmean_map_le; intros; apply Rmin_l|rewrite (rmean_map_const theta x N); lra].
  - apply Rle_trans with (rmean (map (fun a => a) x)); [apply rmean_map_le; intros; apply Rmin_r|rewrite map_id; lra].
Qed.

Lemma pf_forward_rowwise eta alpha raw tau (wd dd : dtype) : dtype_eqb wd dd = true ->
  rowwise (fun xi _ => if dtype_eqb wd dd then pf_forward eta alpha raw tau xi else Raise RuntimeError) (List.length raw) 1 (fun x => [risk_loss eta alpha (softmax raw) tau x]).
Proof.
  intros E xs W. rewrite E, (pf_forward_batch eta alpha raw tau [List.length xs] xs W) by (simpl; lia). unfold per_sample. rewrite map_map. reflexivity.
Qed.

Lemma l2reg_0 : l2reg_of (Some 0) = None.
Proof. unfold l2reg_of. destruct (Rleb 0 0) eqn:E; [reflexivity|rewrite Rleb_false in E; lra]. Qed.

Lemma pf_eval_torch solver eta alpha raw tau coef dt xs : contains "entropic" solver = true -> widths (List.length raw) xs ->
  pf_eval solver dt dt eta alpha raw tau coef (batch [List.length xs] (List.length raw) xs) = Ok (rmean (map (risk_loss eta alpha (softmax raw) tau) xs)).
Proof.
  intros H W. unfold pf_eval. rewrite H. assert (Ed : dtype_eqb dt dt = true) by (destruct dt; reflexivity).
  destruct (unlabelled_value _ (est_wrapped false (Some 0) [[tau]; raw]) 0 (List.length raw) 1 (fun x => [risk_loss eta alpha (softmax raw) tau x]) xs ltac:(unfold w_reg, est_wrapped; cbn [w_l2]; rewrite l2reg_0; reflexivity) eq_refl eq_refl ltac:(lia) ltac:(intros; reflexivity)
    (pf_forward_rowwise eta alpha raw tau dt dt Ed) W) as (t & E & Dt).
  unfold vec in *. rewrite E. cbn [bind]. unfold full_mean. rewrite Dt. do 2 f_equal. apply map_ext. intros x. unfold rmean. simpl. field.
Qed.

Lemma pf_eval_dtype solver wd dd eta alpha raw tau coef d xs : contains "entropic" solver = true -> wd <> dd ->
  pf_eval solver wd dd eta alpha raw tau coef (batch [List.length xs] d xs) = Raise RuntimeError.
Proof.
  intros H N. unfold pf_eval. rewrite H. assert (Ed : dtype_eqb wd dd = false) by (destruct wd, dd; try reflexivity; congruence).
  unfold w_value. cbn [w_has_labels est_wrapped]. rewrite !batch_dim. simpl Nat.ltb. simpl Nat.eqb. cbv iota. unfold flat_value. rewrite Ed. reflexivity.
Qed.

Lemma rsum_col (rows : list vec) : forall coef d, widths d rows -> List.length coef = d ->
  rsum (map2 Rmult (map (fun j => rsum (map (fun r => nth j r 0) rows)) (seq 0 d)) coef) = rsum (map (fun r => dot r coef) rows).
Proof.
  induction rows as [|r rows IH]; intros coef d W L.
  - simpl. subst d. generalize 0%nat. clear. induction coef as [|c coef IH]; intros n; simpl; [reflexivity|]. rewrite IH. ring.
  - pose proof (Forall_inv W) as Hr. pose proof (Forall_inv_tail W) as W'. cbn [map rsum]. rewrite <- (IH coef d W' L). clear IH W W'.
    assert (E : r = map (fun j => nth j r 0) (seq 0 d)).
    { subst d. rewrite <- Hr. clear. rewrite <- (map_id r) at 1. induction r as [|a r IH] using rev_ind; [reflexivity|]. rewrite app_length, seq_app, !map_app. simpl. f_equal.
      - rewrite map_id. rewrite map_id in IH. rewrite IH at 1. apply map_ext_in. intros j Hj. apply in_seq in Hj. rewrite app_nth1 by lia. reflexivity.
      - rewrite app_nth2, Nat.sub_diag by lia. reflexivity. }
    unfold dot. replace (map2 Rmult r coef) with (map2 Rmult (map (fun j => nth j r 0) (seq 0 d)) coef) by (rewrite <- E; reflexivity). generalize (seq 0 d). intros l. clear -coef. revert coef. induction l as [|j l IH]; intros [|c coef]; simpl; try ring. rewrite IH. ring.
Qed.

Lemma pf_eval_dedicated wd dd eta alpha raw tau coef d xs : widths d xs -> List.length coef = d -> xs <> [] ->
  pf_eval "dedicated" wd dd eta alpha raw tau coef (batch [List.length xs] d xs) = Ok (rmean (map (fun x => - dot coef x) xs)).
Proof.
  intros W L N. unfold pf_eval. simpl contains. cbv iota. simpl String.eqb. cbv iota. rewrite (trows_batch [List.length xs] d xs W) by (simpl; lia).
  unfold batch. cbn [shp]. rewrite last_snoc. unfold np_vecdot, col_means. rewrite !map_length, seq_length, L, Nat.eqb_refl. f_equal. rewrite map_map. unfold dot. rewrite map2_map_l.
  pose proof (rsum_col xs coef d W L) as H. pose proof (INR_length_pos xs N) as Np.
  unfold rmean at 2. rewrite map_length.
  assert (E1 : rsum (map (fun x => - rsum (map2 Rmult coef x)) xs) = - rsum (map (fun r => dot r coef) xs)).
  { clear -coef. induction xs as [|x xs IH]; simpl; [ring|]. rewrite IH. fold (dot coef x). rewrite (dot_comm coef x). ring. }
  unfold vec in *. unfold dot in E1. rewrite E1. unfold dot in H. rewrite <- H, map2_map_l.
  assert (E2 : forall l c, rsum (map2 (fun j b => - rmean (map (fun r => nth j r 0) xs) * b) l c) = - (rsum (map2 (fun j b => rsum (map (fun r => nth j r 0) xs) * b) l c)) / INR (List.length xs)).
  { intros l. induction l as [|j l IH]; intros [|b c]; simpl; try (field; lra). rewrite IH. unfold rmean. rewrite map_length. field. lra. }
  apply E2.
Qed.

Lemma wb_eval_fails solver l2 pos X : contains "entropic" solver = true -> wb_eval solver l2 pos X = Raise AssertionError.
Proof. intros H. unfold wb_eval. rewrite H. reflexivity. Qed.

(* another number of assets is refused by both branches *)
Lemma pf_eval_width solver wd dd eta alpha raw tau coef d xs : xs <> [] -> widths d xs ->
  (contains "entropic" solver = true /\ List.length raw <> d) \/ (solver = "dedicated"%string /\ List.length coef <> d) ->
  pf_eval solver wd dd eta alpha raw tau coef (batch [List.length xs] d xs) = Raise (if String.eqb solver "dedicated" then ValueError else RuntimeError).
Proof.
  intros N W [[H L]|[-> L]]; unfold pf_eval.
  - rewrite H. destruct (String.eqb solver "dedicated") eqn:E; [apply String.eqb_eq in E; subst; discriminate|].
    unfold w_value. cbn [w_has_labels est_wrapped]. rewrite !batch_dim. simpl Nat.ltb. simpl Nat.eqb. cbv iota. unfold flat_value.
    assert (P : pf_forward eta alpha raw tau (batch [List.length xs] d xs) = Raise RuntimeError).
    { unfold pf_forward, linear, batch. cbn [shp]. rewrite last_snoc. apply not_eq_sym, Nat.eqb_neq in L. rewrite L. reflexivity. }
    destruct (dtype_eqb wd dd); [|reflexivity]. cbn [bind w_oop est_wrapped]. unfold vec in *. rewrite P. reflexivity.
  - simpl contains. cbv iota. simpl String.eqb. cbv iota. rewrite (trows_batch [List.length xs] d xs W) by (simpl; lia).
    unfold batch. cbn [shp]. rewrite last_snoc. unfold np_vecdot, col_means. rewrite !map_length, seq_length. apply not_eq_sym, Nat.eqb_neq in L. rewrite L. reflexivity.
Qed.
