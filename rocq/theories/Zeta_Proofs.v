From Coq Require Import Reals List Bool ZArith Lra Lia.
From Verif Require Import PyBase RList XReal Samplers_Model Samplers_Spec Samplers_Proofs Draws_Proofs Zeta_Model.
Import ListNotations.
Local Open Scope R_scope.

(* ---------- spec ---------- *)
(* rows of the same length d *)
Definition rect (d : nat) (b : batch) : Prop := Forall (fun r => List.length r = d) b.
(* the batch plus L times the noise, row by row *)
Definition moved (n : nat) (b : batch) (L : mat) (noise z : list batch) : Prop :=
  List.length z = n /\
  forall i j, (i < n)%nat -> (j < List.length b)%nat ->
    List.length (nth i z []) = List.length b /\
    forall k, (k < List.length (nth j b []))%nat -> (k < List.length L)%nat ->
      at3 z i j k = nth k (nth j b []) 0 + dot (nth k L []) (nth j (nth i noise []) []).
(* the batch plus s times the noise *)
Definition blurred (n : nat) (b : batch) (s : R) (noise z : list batch) : Prop :=
  shaped n b z /\
  forall i j k, (i < n)%nat -> (j < List.length b)%nat -> (k < List.length (nth j b []))%nat ->
    at3 z i j k = nth k (nth j b []) 0 + s * at3 noise i j k.

(* ---------- draws ---------- *)
Lemma nth_map_in {A B} (f : A -> B) da db l i : (i < List.length l)%nat -> nth i (map f l) db = f (nth i l da).
Proof. intros H. rewrite (nth_indep _ db (f da)) by (rewrite map_length; exact H). apply map_nth. Qed.

Lemma rsum_delta2 (s : R) (e : vec) i : forall st, (st <= i)%nat -> (i < st + List.length e)%nat ->
  rsum (map2 Rmult (map (fun j => if Nat.eqb i j then s else 0) (seq st (List.length e))) e) = s * nth (i - st) e 0.
Proof.
  induction e as [|a e IH]; intros st H1 H2; cbn [List.length] in *; [lia|]. cbn [seq map map2 rsum].
  destruct (Nat.eq_dec i st) as [->|Hn].
  - rewrite Nat.eqb_refl, Nat.sub_diag. cbn [nth].
    assert (Z : rsum (map2 Rmult (map (fun j => if Nat.eqb st j then s else 0) (seq (S st) (List.length e))) e) = 0).
    { assert (Q : forall e' st', (st < st')%nat -> rsum (map2 Rmult (map (fun j => if Nat.eqb st j then s else 0) (seq st' (List.length e'))) e') = 0).
      { induction e' as [|b e' IH']; intros st' Hs; cbn; [reflexivity|]. rewrite IH' by lia. assert (Nat.eqb st st' = false) as -> by (apply Nat.eqb_neq; lia). lra. }
      apply Q. lia. }
    rewrite Z. lra.
  - assert (Nat.eqb i st = false) as -> by (apply Nat.eqb_neq; exact Hn). rewrite IH by lia.
    replace (i - st)%nat with (S (i - S st)) by lia. cbn [nth]. lra.
Qed.

Lemma eye_vec s e : mat_vec (eye_scaled (List.length e) s) e = map (fun x => s * x) e.
Proof.
  unfold mat_vec, eye_scaled. rewrite map_map. apply nth_ext with (d := 0) (d' := 0).
  - rewrite !map_length, seq_length. reflexivity.
  - intros i Hi. rewrite map_length, seq_length in Hi.
    rewrite (nth_map_seq (fun i => dot (map (fun j => if Nat.eqb i j then s else 0) (seq 0 (List.length e))) e)) by exact Hi.
    unfold dot. rewrite rsum_delta2 by lia. rewrite Nat.sub_0_r, (nth_map_in _ 0) by exact Hi. reflexivity.
Qed.

Section Draws.
  Variable G : Type.
  Variable draw : fam -> nat -> list nat -> G -> list batch * G.
  Variable coins : R -> nat -> list nat -> G -> list (list (list bool)) * G.

  Lemma mvn_moved b L n g noise g' : draw FNormal n (map (@List.length R) b) g = (noise, g') -> shaped n b noise ->
    exists z, mvn_rsample G draw b L n g = (z, g') /\ moved n b L noise z.
  Proof.
    intros D [Ln F]. unfold mvn_rsample. rewrite D. eexists. split; [reflexivity|]. split; [rewrite map_length; exact Ln|].
    intros i j Hi Hj. unfold batch, vec in *.
    assert (U : Forall2 (fun r s0 => List.length r = List.length s0) (nth i noise []) b).
    { rewrite Forall_forall in F. apply F. apply nth_In. lia. }
    pose proof (forall2_len _ _ _ U) as LU. unfold vec in *.
    assert (E : nth i (map (map2 (fun l e => vadd l (mat_vec L e)) b) noise) [] = map2 (fun l e => vadd l (mat_vec L e)) b (nth i noise [])).
    { apply nth_map_in. unfold batch, vec in *; lia. }
    split.
    - etransitivity; [|exact (map2_len (fun l e => vadd l (mat_vec L e)) b (nth i noise []) (eq_sym LU))]. apply f_equal. exact E.
    - intros k Hk HL. unfold at3. unfold batch, vec in *. rewrite E. unfold batch, vec in *. rewrite (nth_map2 _ [] []) by lia. unfold vadd.
      rewrite (nth_map2 _ 0 0); [|exact Hk|unfold mat_vec; rewrite map_length; exact HL].
      apply f_equal2; [reflexivity|]. exact (nth_map_in (fun row => dot row (nth j (nth i noise []) [])) [] 0 L k HL).
  Qed.

  Lemma mvn_blurred d b s n g noise g' : rect d b -> draw FNormal n (map (@List.length R) b) g = (noise, g') -> shaped n b noise ->
    exists z, mvn_rsample G draw b (eye_scaled d s) n g = (z, g') /\ blurred n b s noise z.
  Proof.
    intros Hr D [Ln F]. unfold mvn_rsample. rewrite D. eexists. split; [reflexivity|].
    assert (K : forall i, (i < n)%nat -> Forall2 (fun r s0 => List.length r = List.length s0) (nth i noise []) b).
    { intros i Hi. rewrite Forall_forall in F. apply F. apply nth_In. unfold batch, vec in *. lia. }
    split.
    - split; [rewrite map_length; exact Ln|]. apply Forall_map. eapply Forall_impl; [|exact F]. cbn beta. intros u Hu.
      clear -Hu Hr. revert b Hu Hr. induction u as [|r u IH]; intros [|q b] H Hr; inversion H; subst; cbn; constructor.
      + inversion Hr; subst. unfold vadd. rewrite map2_len; [reflexivity|].
        replace (List.length q) with (List.length r) by congruence. rewrite eye_vec, map_length. congruence.
      + apply IH; [assumption|]. inversion Hr; assumption.
    - intros i j k Hi Hj Hk. specialize (K i Hi). unfold batch, vec in *. pose proof (forall2_len _ _ _ K) as LU.
      pose proof (forall2_nth _ [] [] _ _ K j Hj) as LR. cbn beta in LR.
      assert (Hd : List.length (nth j b []) = d). { unfold rect in Hr. rewrite Forall_forall in Hr. apply Hr. apply nth_In. exact Hj. }
      assert (E : nth i (map (map2 (fun l e => vadd l (mat_vec (eye_scaled d s) e)) b) noise) [] =
                  map2 (fun l e => vadd l (mat_vec (eye_scaled d s) e)) b (nth i noise [])) by (apply nth_map_in; unfold batch, vec in *; lia).
      unfold at3. unfold batch, vec in *. rewrite E. unfold batch, vec in *. rewrite (nth_map2 _ [] []) by lia.
      rewrite <- Hd, <- LR, eye_vec. unfold vadd. rewrite (nth_map2 _ 0 0); [|lia|rewrite map_length; lia].
      rewrite (nth_map_in _ 0) by lia. reflexivity.
  Qed.

  Lemma flips_values p y n g b g' : coins p n (map (@List.length R) y) g = (b, g') ->
    List.length b = n -> Forall (fun u => Forall2 (fun r s => List.length r = List.length s) u y) b ->
    exists z, lab_sample G draw coins (LFlip p y) n g = (z, g') /\ shaped n y z /\
      forall i j k, (i < n)%nat -> (j < List.length y)%nat -> (k < List.length (nth j y []))%nat ->
        at3 z i j k = if nth k (nth j (nth i b []) []) false then nth k (nth j y []) 0 else - nth k (nth j y []) 0.
  Proof.
    intros D Ln F. cbn. rewrite D. eexists. split; [reflexivity|]. split.
    - split; [rewrite map_length; exact Ln|]. apply Forall_map. eapply Forall_impl; [|exact F]. cbn beta. intros u Hu.
      clear -Hu. revert y Hu. induction u as [|r u IH]; intros [|q y] H; inversion H; subst; cbn; constructor.
      + rewrite map2_len by congruence. reflexivity.
      + apply IH. assumption.
    - intros i j k Hi Hj Hk. unfold batch, vec in *.
      assert (U : Forall2 (fun r s0 => List.length r = List.length s0) (nth i b []) y).
      { rewrite Forall_forall in F. apply F. apply nth_In. lia. }
      pose proof (forall2_len _ _ _ U) as LU. pose proof (forall2_nth _ [] [] _ _ U j Hj) as LR. cbn beta in LR.
      unfold at3. rewrite (nth_map_in (map2 (map2 flip_label) y) []) by lia. unfold batch, vec in *. rewrite (nth_map2 _ [] []) by lia.
      rewrite (nth_map2 _ 0 false) by lia. apply flip_values.
  Qed.
End Draws.

(* ---------- default samplers ---------- *)
Section Defaults.
  Variable chol prec_chol : mat -> option mat.
  Lemma kw_sigma xi e : kw_tril chol prec_chol xi (sigma_kw e) = if lower_cholesky (eye_scaled (last_dim xi) e) then Ok (eye_scaled (last_dim xi) e) else Raise ValueError.
  Proof. reflexivity. Qed.
  Lemma default_class k xi y e seed : k = KLogistic \/ k = KQuadratic -> (0 < last_dim xi)%nat -> (0 < last_dim y)%nat ->
    default_sampler chol prec_chol k xi (Some y) e seed =
    if Rltb 0 e then Ok (Some (SClass {| cl_data := {| n_loc := xi; n_tril := eye_scaled (last_dim xi) e; n_seed := seed |};
                                         cl_lab := LGauss y (eye_scaled (last_dim y) e) |})) else Raise ValueError.
  Proof.
    intros Hk Hx Hy.
    assert (E : default_sampler chol prec_chol k xi (Some y) e seed =
      do s <- cl_init chol prec_chol (ANormalNormal (sigma_kw e)) xi y (sigma_kw e) seed; Ok (Some (SClass s))) by (destruct Hk; subst; reflexivity).
    rewrite E. unfold cl_init. cbn [sigma_kw k_sigma k_tril k_prec k_cov init_covar bind mvn_tril].
    destruct (Rltb 0 e) eqn:He.
    - apply Rltb_true in He. rewrite (proj2 (eye_valid _ e Hx) He). cbn [bind]. rewrite (proj2 (eye_valid _ e Hy) He). reflexivity.
    - apply Rltb_false in He. destruct (lower_cholesky (eye_scaled (last_dim xi) e)) eqn:L; [|reflexivity].
      apply (eye_valid _ e Hx) in L. lra.
  Qed.
  Lemma default_newsvendor xi y e seed : (0 < last_dim xi)%nat ->
    default_sampler chol prec_chol KNewsVendor xi y e seed =
    if Rltb 0 e then Ok (Some (SNormal {| n_loc := xi; n_tril := eye_scaled (last_dim xi) e; n_seed := seed |})) else Raise ValueError.
  Proof.
    intros Hx. unfold default_sampler, ns_init. rewrite kw_sigma. destruct (Rltb 0 e) eqn:He.
    - apply Rltb_true in He. rewrite (proj2 (eye_valid _ e Hx) He). reflexivity.
    - apply Rltb_false in He. destruct (lower_cholesky (eye_scaled (last_dim xi) e)) eqn:L; [|reflexivity].
      apply (eye_valid _ e Hx) in L. lra.
  Qed.
End Defaults.

(* ---------- the sampler in force ---------- *)
(* what the last successful operation left: None after a deletion *)
Fixpoint in_force (has_labels : bool) (c : scost) (cur : option (option sampler)) (l : list sop) : option (option sampler) :=
  match l with
  | [] => cur
  | OSet s :: r => in_force has_labels c (Some s) r
  | ODel :: r => in_force has_labels c None r
  | OInit xi y sigma seed :: r =>
      in_force has_labels c
        (match has_labels, y with
         | true, Some y => match labeled_init c xi y (Some sigma) seed with Ok s => Some (Some (SCost s)) | Raise _ => cur end
         | false, None => match nolabels_init c xi (Some sigma) seed with Ok s => Some (Some (SCost s)) | Raise _ => cur end
         | _, _ => cur
         end) r
  end.

Lemma sact_shape d o : lo_has_labels (du_loss (sact d o)) = lo_has_labels (du_loss d) /\ du_cost (sact d o) = du_cost d /\ du_n (sact d o) = du_n d.
Proof.
  destruct o; cbn; auto.
  - unfold del_sampler. destruct (lo_sampler (du_loss d)); cbn; auto.
  - unfold init_sampler. destruct (lo_has_labels (du_loss d)) eqn:Hl; destruct y; cbn; auto.
    + destruct (labeled_init _ _ _ _ _); cbn; auto.
    + destruct (nolabels_init _ _ _ _); cbn; auto.
Qed.
Lemma sacts_in_force l : forall d, lo_sampler (du_loss (sacts d l)) = in_force (lo_has_labels (du_loss d)) (du_cost d) (lo_sampler (du_loss d)) l /\
  du_n (sacts d l) = du_n d.
Proof.
  induction l as [|o l IH]; intros d; [split; reflexivity|]. cbn [sacts fold_left]. change (fold_left sact l (sact d o)) with (sacts (sact d o) l).
  destruct (sact_shape d o) as (E1 & E2 & E3). destruct (IH (sact d o)) as [IH1 IH2]. rewrite IH1, IH2, E1, E2, E3. split; [|reflexivity].
  destruct o; cbn [in_force]; try reflexivity.
  - f_equal. cbn. unfold del_sampler. destruct (lo_sampler (du_loss d)) eqn:E; cbn; congruence.
  - f_equal. cbn. unfold init_sampler. destruct (lo_has_labels (du_loss d)); destruct y; cbn; auto.
    + destruct (labeled_init _ _ _ _ _); reflexivity.
    + destruct (nolabels_init _ _ _ _); reflexivity.
Qed.

(* the private attribute of the dual loss is never read *)
Definition with_own (d : dual) (s : option sampler) : dual := {| du_loss := du_loss d; du_cost := du_cost d; du_own := s; du_n := du_n d |}.
Lemma own_unread (G : Type) draw coins l d s n g :
  generate_zetas G draw coins (sacts (with_own d s) l) n g = generate_zetas G draw coins (sacts d l) n g.
Proof.
  unfold generate_zetas, get_sampler. destruct (sacts_in_force l (with_own d s)) as [E1 E2]. destruct (sacts_in_force l d) as [F1 F2].
  rewrite E1, E2, F1, F2. reflexivity.
Qed.

(* ---------- counts ---------- *)
Lemma iterate_length (G : Type) draw coins s k : forall g, List.length (fst (iterate G draw coins s k g)) = k.
Proof.
  induction k as [|k IH]; intros g; cbn; [reflexivity|]. destruct (any_sample G draw coins s 1 g) as [[z zl] g1].
  specialize (IH g1). destruct (iterate G draw coins s k g1). cbn in *. congruence.
Qed.
