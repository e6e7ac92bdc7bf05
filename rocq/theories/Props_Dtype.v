(* Properties C119 and C120: the numeric types of the data. *)
From Coq Require Import Reals List Bool ZArith Lra Lia.
From Verif Require Import PyBase RList XReal Estim_Model Estim_Proofs Dtype_Model Dtype_Spec Dtype_Proofs.
Import ListNotations.
Local Open Scope R_scope.

(* ---------- C120: the data in float32 ---------- *)
(* What a conversion gives, when finite: a number of the format, and none is nearer. *)
Theorem C120_nearest :
  forall f x r, good_fmt f -> convert f x = Fin r ->
    representable f r /\ forall y, representable f y -> Rabs (d2r x - r) <= Rabs (d2r x - y).
Proof.
  intros f x r [Hp He] H. apply convert_fin in H. destruct H as [<- B]. split.
  - destruct (rnd_in f x Hp) as (m & e & E & Hm & Hn). exists m, e. unfold two_pow in *. auto.
  - intros y (m & e & -> & Hm & Hn & _). apply (rnd_nearest f x m e); auto. lia.
Qed.
Print Assumptions C120_nearest.

(* Numbers of the format are not changed. *)
Theorem C120_exact : forall f x, good_fmt f -> representable f (d2r x) -> convert f x = Fin (d2r x).
Proof.
  intros f x [Hp He] (m & e & E & Hm & Hn & B). apply convert_fin. split; [|exact B]. apply (rnd_keeps f x m e); auto. lia.
Qed.
Print Assumptions C120_exact.

(* Others change by at most one part in 2^prec, above the subnormal range. *)
Theorem C120_relative :
  forall f x r, good_fmt f -> convert f x = Fin r -> powerRZ 2 (emin f + prec f - 1) <= Rabs (d2r x) ->
    Rabs (d2r x - r) <= powerRZ 2 (- prec f) * Rabs (d2r x).
Proof.
  intros f x r [Hp He] H L. apply convert_fin in H. destruct H as [<- _]. fold (two_pow (emin f + prec f - 1)) in L. fold (two_pow (- prec f)).
  assert (N : dm x <> 0%Z).
  { intros Z0. apply d2r_zero in Z0. rewrite Z0, Rabs_R0 in L. pose proof (tp_pos (emin f + prec f - 1)). lra. }
  destruct (lead_spec x N) as [A B]. assert (K : two_pow (emin f + prec f - 1) < two_pow (lead x + 1)) by lra. apply tp_lt_inv in K.
  pose proof (rnd_half f x) as Hh. assert (E : last_place f x = (1 + (lead x + - prec f))%Z) by (unfold last_place; fold (lead x); lia).
  rewrite E, !tp_add in Hh. replace (two_pow 1) with 2 in Hh by (unfold two_pow; simpl; ring). pose proof (tp_pos (- prec f)) as P.
  apply Rle_trans with (two_pow (lead x) * two_pow (- prec f)); [lra|]. rewrite (Rmult_comm _ (two_pow (- prec f))). apply Rmult_le_compat_l; lra.
Qed.
Print Assumptions C120_relative.

(* The order of the data is kept, up to ties. *)
Theorem C120_order :
  forall f x y r s, good_fmt f -> convert f x = Fin r -> convert f y = Fin s -> d2r x <= d2r y -> r <= s.
Proof. intros f x y r s [Hp _] Hx Hy L. apply convert_fin in Hx, Hy. destruct Hx as [<- _], Hy as [<- _]. apply rnd_mono; assumption. Qed.
Print Assumptions C120_order.

(* Finite exactly below (2^prec - 1/2) 2^(emax - prec), infinite with the sign of the number from there. *)
Definition overflow_from (f : fmt) : R := (powerRZ 2 (prec f) - 1 / 2) * powerRZ 2 (emax f - prec f).
Lemma edge f s : good_fmt f -> (s = 1 \/ s = -1)%Z -> let t := Dy (s * (2 ^ (prec f + 1) - 1)) (emax f - prec f - 1) in
  d2r t = IZR s * overflow_from f /\ rnd f t = IZR s * two_pow (emax f).
Proof.
  intros [Hp He] Hs t.
  assert (P : (2 ^ (prec f + 1) = 2 * 2 ^ prec f)%Z) by (rewrite <- Z.pow_succ_r by lia; f_equal; lia).
  assert (P0 : (0 < 2 ^ prec f)%Z) by (apply Z.pow_pos_nonneg; lia).
  assert (P1 : (2 ^ prec f = 2 * 2 ^ (prec f - 1))%Z) by (rewrite <- Z.pow_succ_r by lia; f_equal; lia).
  assert (A : Z.abs (dm t) = (2 ^ (prec f + 1) - 1)%Z) by (unfold t; cbn [dm]; destruct Hs as [-> | ->]; lia).
  assert (Lg : Z.log2 (Z.abs (dm t)) = prec f).
  { rewrite A. apply Z.log2_unique; [lia|]. replace (Z.succ (prec f)) with (prec f + 1)%Z by lia. lia. }
  assert (E : last_place f t = (emax f - prec f)%Z) by (unfold last_place; rewrite Lg; unfold t; cbn [de]; lia). split.
  - unfold overflow_from, d2r, t. cbn [dm de]. fold (two_pow (prec f)). fold (two_pow (emax f - prec f)).
    assert (U : two_pow (emax f - prec f) = 2 * two_pow (emax f - prec f - 1)).
    { replace (emax f - prec f)%Z with (1 + (emax f - prec f - 1))%Z at 1 by ring. rewrite tp_add. unfold two_pow at 1. simpl. ring. }
    rewrite U, (tp_IZR (prec f)) by lia. rewrite P, mult_IZR, minus_IZR, mult_IZR. field.
  - unfold rnd, round_to. rewrite E. destruct (Z.leb_spec (emax f - prec f) (de t)) as [K|K]; [unfold t in K; cbn [de] in K; lia|].
    replace (emax f - prec f - de t)%Z with 1%Z by (unfold t; cbn [de]; ring).
    assert (D : div_even (dm t) 1 = (s * 2 ^ prec f)%Z).
    { unfold div_even, t. cbn [dm]. change (2 ^ 1)%Z with 2%Z. destruct Hs as [-> | ->].
      - replace (1 * (2 ^ (prec f + 1) - 1))%Z with ((2 ^ prec f - 1) * 2 + 1)%Z by lia.
        rewrite Z.div_add_l, Z.add_comm, Z.mod_add by lia. change (1 / 2)%Z with 0%Z. change (1 mod 2)%Z with 1%Z. change (2 * 1 ?= 2)%Z with Eq.
        replace (Z.even (2 ^ prec f - 1 + 0)) with false; [lia|]. symmetry. replace (2 ^ prec f - 1 + 0)%Z with (2 * (2 ^ (prec f - 1) - 1) + 1)%Z by lia. rewrite Z.even_add, Z.even_mul. reflexivity.
      - replace (-1 * (2 ^ (prec f + 1) - 1))%Z with ((- 2 ^ prec f) * 2 + 1)%Z by lia.
        rewrite Z.div_add_l, Z.add_comm, Z.mod_add by lia. change (1 / 2)%Z with 0%Z. change (1 mod 2)%Z with 1%Z. change (2 * 1 ?= 2)%Z with Eq.
        replace (Z.even (- 2 ^ prec f + 0)) with true; [lia|]. symmetry. replace (- 2 ^ prec f + 0)%Z with (2 * (- 2 ^ (prec f - 1)))%Z by lia. rewrite Z.even_mul. reflexivity. }
    rewrite D. unfold d2r. cbn [dm de]. rewrite mult_IZR, <- tp_IZR by lia. rewrite Rmult_assoc, <- tp_add. do 2 f_equal. ring.
Qed.
Lemma dm_sign x : (0 < dm x)%Z <-> 0 < d2r x.
Proof.
  unfold d2r. pose proof (tp_pos (de x)). split.
  - intros K. apply IZR_lt in K. apply Rmult_lt_0_compat; lra.
  - intros K. apply lt_IZR. nra.
Qed.

Theorem C120_overflow :
  forall f x, good_fmt f ->
    (Rabs (d2r x) < overflow_from f <-> exists r, convert f x = Fin r) /\
    (overflow_from f <= d2r x <-> convert f x = PInf) /\ (d2r x <= - overflow_from f <-> convert f x = MInf).
Proof.
  intros f x G. pose proof G as [Hp He]. set (T := overflow_from f). set (M := two_pow (emax f)).
  assert (MT : IZR (2 ^ prec f - 1) * two_pow (emax f - prec f) + M = 2 * T).
  { unfold T, M, overflow_from. fold (two_pow (prec f)). fold (two_pow (emax f - prec f)). rewrite minus_IZR, <- tp_IZR by lia.
    replace (two_pow (emax f)) with (two_pow (prec f) * two_pow (emax f - prec f)) by (rewrite <- tp_add; f_equal; ring). field. }
  assert (TM : T < M).
  { unfold T, M, overflow_from. fold (two_pow (prec f)). fold (two_pow (emax f - prec f)).
    replace (two_pow (emax f)) with (two_pow (prec f) * two_pow (emax f - prec f)) by (rewrite <- tp_add; f_equal; ring). pose proof (tp_pos (emax f - prec f)). nra. }
  assert (PZ : (1 < 2 ^ prec f)%Z) by (apply Z.pow_gt_1; lia).
  assert (T0 : 0 < T).
  { assert (0 <= IZR (2 ^ prec f - 1) * two_pow (emax f - prec f)) by (apply Rmult_le_pos; [apply IZR_le; lia|left; apply tp_pos]). pose proof (tp_pos (emax f)). fold M in H0. lra. }
  assert (Up : T <= d2r x -> M <= rnd f x).
  { intros K. destruct (edge f 1 G ltac:(auto)) as [E1 E2]. fold T in E1. rewrite Rmult_1_l in E1, E2. fold M in E2. rewrite <- E2. apply rnd_mono; [exact Hp|]. rewrite E1. exact K. }
  assert (Dn : d2r x <= - T -> rnd f x <= - M).
  { intros K. destruct (edge f (-1) G ltac:(auto)) as [E1 E2]. fold T in E1. fold M in E2.
    apply Rle_trans with (-1 * M); [|lra]. rewrite <- E2. apply rnd_mono; [exact Hp|]. rewrite E1. lra. }
  assert (In : Rabs (d2r x) < T -> Rabs (rnd f x) < M).
  { intros K. destruct (Rlt_dec (Rabs (rnd f x)) M) as [|N]; [assumption|exfalso].
    pose proof (rnd_nearest f x (2 ^ prec f - 1) (emax f - prec f) ltac:(lia) ltac:(lia) ltac:(lia)) as N1.
    pose proof (rnd_nearest f x (- (2 ^ prec f - 1)) (emax f - prec f) ltac:(lia) ltac:(lia) ltac:(lia)) as N2.
    rewrite opp_IZR in N2. rewrite Ropp_mult_distr_l_reverse in N2.
    set (b := IZR (2 ^ prec f - 1) * two_pow (emax f - prec f)) in *. revert K N N1 N2. unfold Rabs. repeat destruct Rcase_abs; intros; lra. }
  assert (Fi : Rabs (rnd f x) < M -> convert f x = Fin (rnd f x)) by (intros K; apply convert_fin; auto).
  assert (Po : M <= rnd f x -> convert f x = PInf).
  { intros K. unfold convert. replace (too_big f (round_to f x)) with true.
    - replace (0 <? dm (round_to f x))%Z with true; [reflexivity|]. symmetry. apply Z.ltb_lt, dm_sign. change (0 < rnd f x). lra.
    - symmetry. apply too_big_spec. change (M <= Rabs (rnd f x)). rewrite Rabs_right by lra. exact K. }
  assert (Ne : rnd f x <= - M -> convert f x = MInf).
  { intros K. unfold convert. replace (too_big f (round_to f x)) with true.
    - replace (0 <? dm (round_to f x))%Z with false; [reflexivity|]. symmetry. apply Z.ltb_ge. apply Z.nlt_ge. intros N. apply dm_sign in N. change (0 < rnd f x) in N. lra.
    - symmetry. apply too_big_spec. change (M <= Rabs (rnd f x)). rewrite Rabs_left by lra. lra. }
  assert (Tri : Rabs (d2r x) < T \/ T <= d2r x \/ d2r x <= - T).
  { unfold Rabs. destruct Rcase_abs; lra. }
  split; [|split]; split.
  - intros K. exists (rnd f x). auto.
  - intros [r Hr]. destruct Tri as [K|[K|K]]; [exact K| |]; exfalso; [rewrite (Po (Up K)) in Hr|rewrite (Ne (Dn K)) in Hr]; discriminate.
  - auto.
  - intros Hr. destruct Tri as [K|[K|K]]; [rewrite (Fi (In K)) in Hr; discriminate|exact K|rewrite (Ne (Dn K)) in Hr; discriminate].
  - auto.
  - intros Hr. destruct Tri as [K|[K|K]]; [rewrite (Fi (In K)) in Hr; discriminate|rewrite (Po (Up K)) in Hr; discriminate|exact K].
Qed.
Print Assumptions C120_overflow.

Lemma good32 : good_fmt float32. Proof. split; simpl; lia. Qed.
Lemma good64 : good_fmt float64. Proof. split; simpl; lia. Qed.

(* A data set of float32 numbers reaches the solver unchanged, with its shape. *)
Theorem C120_data_kept :
  forall xs ys, Forall (Forall (fun x => representable float32 (d2r x))) xs -> Forall (Forall (fun x => representable float32 (d2r x))) ys ->
    extract_data xs None = (map (map (fun x => Fin (d2r x))) xs, None) /\
    extract_data xs (Some ys) = (map (map (fun x => Fin (d2r x))) xs, Some (map (map (fun x => Fin (d2r x))) ys)).
Proof.
  assert (G : forall xs, Forall (Forall (fun x => representable float32 (d2r x))) xs -> pt_Tensor xs = map (map (fun x => Fin (d2r x))) xs).
  { intros xs H. unfold pt_Tensor. apply map_ext_in. intros r Hr. rewrite Forall_forall in H. specialize (H r Hr). apply map_ext_in. intros x Hx.
    rewrite Forall_forall in H. apply C120_exact; [exact good32|auto]. }
  intros xs ys Hx Hy. unfold extract_data. rewrite !G by assumption. auto.
Qed.
Print Assumptions C120_data_kept.

(* In particular integers up to 2^24 in magnitude. *)
Theorem C120_integers : forall v, (Z.abs v <= 2 ^ 24)%Z -> convert float32 (Dy v 0) = Fin (IZR v).
Proof.
  intros v H. replace (IZR v) with (d2r (Dy v 0)) by (unfold d2r, two_pow; simpl; ring). apply C120_exact; [exact good32|].
  assert (B : Rabs (d2r (Dy v 0)) < powerRZ 2 (emax float32)).
  { unfold d2r. cbn [dm de]. unfold two_pow. rewrite powerRZ_O, Rmult_1_r, Rabs_Zabs. change (powerRZ 2 (emax float32)) with (two_pow 128).
    rewrite tp_IZR by lia. apply IZR_lt. assert (2 ^ 24 < 2 ^ 128)%Z by (apply Z.pow_lt_mono_r; lia). lia. }
  destruct (Z.eq_dec (Z.abs v) (2 ^ 24)) as [E|N].
  - exists (Z.sgn v * 2 ^ 23)%Z, 1%Z. split; [|split; [|split; [simpl; lia|exact B]]].
    + unfold d2r. cbn [dm de]. change (powerRZ 2 1) with (two_pow 1). unfold two_pow. rewrite powerRZ_O, powerRZ_1, Rmult_1_r.
      change 2 with (IZR 2). rewrite <- mult_IZR. f_equal. change (2 ^ 24)%Z with (2 ^ 23 * 2)%Z in E. rewrite <- Z.mul_assoc, <- E, Z.mul_comm. symmetry. apply Z.abs_sgn.
    + rewrite Z.abs_mul. simpl (prec float32). destruct (Z.sgn_spec v) as [[? ->]|[[? ->]|[? ->]]]; cbn; lia.
  - exists v, 0%Z. split; [reflexivity|]. split; [simpl (prec float32); lia|]. split; [simpl; lia|exact B].
Qed.
Print Assumptions C120_integers.

Lemma rep64_int v : (Z.abs v < 2 ^ 53)%Z -> representable float64 (IZR v).
Proof.
  intros H. exists v, 0%Z. split; [simpl; ring|]. split; [exact H|]. split; [simpl; lia|]. rewrite Rabs_Zabs. change (powerRZ 2 (emax float64)) with (two_pow 1024).
  rewrite tp_IZR by lia. apply IZR_lt. assert (2 ^ 53 < 2 ^ 1024)%Z by (apply Z.pow_lt_mono_r; lia). lia.
Qed.

(* Data of numpy's default type are not kept: different data sets become equal ... *)
Theorem C120_distinct_refuted :
  exists x y, representable float64 (d2r x) /\ representable float64 (d2r y) /\ d2r x <> d2r y /\ extract_data [[x]] None = extract_data [[y]] None.
Proof.
  exists (Dy 16777216 0), (Dy 16777217 0).
  assert (V : forall v, d2r (Dy v 0) = IZR v) by (intros; unfold d2r, two_pow; simpl; ring). rewrite !V.
  split; [apply rep64_int; reflexivity|]. split; [apply rep64_int; reflexivity|]. split; [intros K; apply eq_IZR in K; discriminate|].
  assert (E : convert float32 (Dy 16777217 0) = Fin (IZR 16777216)); [|unfold extract_data, pt_Tensor; cbn [map]; rewrite E, C120_integers by (simpl; lia); reflexivity].
  apply convert_fin. split.
  - unfold rnd. replace (round_to float32 (Dy 16777217 0)) with (Dy 8388608 1) by (vm_compute; reflexivity). unfold d2r, two_pow. simpl. lra.
  - rewrite Rabs_right by lra. change (emax float32) with 128%Z. rewrite tp_IZR by lia. apply IZR_lt. reflexivity.
Qed.
Print Assumptions C120_distinct_refuted.

(* ... finite data become infinite, and a positive radius (pt.tensor(self.rho)) becomes 0. *)
Theorem C120_finite_refuted :
  exists x, representable float64 (d2r x) /\ extract_data [[x]] None = ([[PInf]], None).
Proof.
  exists (Dy 1 128). split.
  - exists 1%Z, 128%Z. split; [reflexivity|]. split; [reflexivity|]. split; [simpl; lia|]. unfold d2r. cbn [dm de]. rewrite Rmult_1_l.
    rewrite Rabs_right by (left; apply tp_pos). apply tp_lt. simpl. lia.
  - assert (E : convert float32 (Dy 1 128) = PInf); [|unfold extract_data, pt_Tensor; cbn [map]; rewrite E; reflexivity].
    unfold convert. replace (too_big float32 (round_to float32 (Dy 1 128))) with true by (vm_compute; reflexivity).
    replace (0 <? dm (round_to float32 (Dy 1 128)))%Z with true by (vm_compute; reflexivity). reflexivity.
Qed.
Print Assumptions C120_finite_refuted.

Theorem C120_radius_refuted : exists rho, representable float64 (d2r rho) /\ 0 < d2r rho /\ convert float32 rho = Fin 0.
Proof.
  exists (Dy 1 (-150)). unfold d2r. cbn [dm de]. rewrite Rmult_1_l. split; [|split].
  - exists 1%Z, (-150)%Z. split; [rewrite Rmult_1_l; reflexivity|]. split; [reflexivity|]. split; [simpl; lia|].
    rewrite Rabs_right by (left; apply tp_pos). apply tp_lt. simpl. lia.
  - apply tp_pos.
  - apply convert_fin. split.
    + unfold rnd. apply d2r_zero. vm_compute. reflexivity.
    + rewrite Rabs_R0. apply tp_pos.
Qed.
Print Assumptions C120_radius_refuted.

Example C120_case : good_fmt float32 /\ good_fmt float64 /\ convert float32 (Dy 1 (-149)) = Fin (powerRZ 2 (-149)) /\ convert float32 (Dy 3 (-1)) = Fin (3 / 2).
Proof.
  split; [exact good32|]. split; [exact good64|]. split.
  - apply convert_fin. split; [unfold rnd; replace (round_to float32 (Dy 1 (-149))) with (Dy 1 (-149)) by (vm_compute; reflexivity); unfold d2r; cbn [dm de]; rewrite Rmult_1_l; reflexivity|].
    rewrite Rabs_right by (left; apply tp_pos). apply tp_lt. simpl. lia.
  - apply convert_fin. split; [unfold rnd; replace (round_to float32 (Dy 3 (-1))) with (Dy 3 (-1)) by (vm_compute; reflexivity); unfold d2r, two_pow; simpl; field|].
    rewrite Rabs_right by lra. change (emax float32) with 128%Z. rewrite tp_IZR by lia. apply Rlt_le_trans with (IZR 2); [lra|]. apply IZR_le. vm_compute. discriminate.
Qed.

(* ---------- C119: the labels in the type of the features ---------- *)
Lemma store_signs nc k v : signed_kind k -> (v = -1 \/ v = 0 \/ v = 1)%Z -> store nc k v = IZR v.
Proof.
  intros Hk Hv. destruct k as [|b|b|f]; try contradiction; cbn [store signed_kind] in *.
  - assert (P : (2 ^ b = 2 * 2 ^ (b - 1))%Z) by (rewrite <- Z.pow_succ_r by lia; f_equal; lia).
    assert (Q : (2 ^ (b - 1) = 2 * 2 ^ (b - 2))%Z) by (rewrite <- Z.pow_succ_r by lia; f_equal; lia).
    assert (Q0 : (0 < 2 ^ (b - 2))%Z) by (apply Z.pow_pos_nonneg; lia).
    rewrite Z.mod_small by lia. f_equal. ring.
  - destruct Hk as (Hp & Hn & Hm). assert (V : d2r (Dy v 0) = IZR v) by (unfold d2r, two_pow; simpl; ring).
    assert (P : (1 < 2 ^ prec f)%Z) by (apply Z.pow_gt_1; lia).
    assert (E : convert f (Dy v 0) = Fin (IZR v)).
    { apply convert_fin. rewrite <- V. split.
      - apply (rnd_keeps f _ v 0); [lia|lia|lia|]. unfold two_pow, d2r. simpl. ring.
      - rewrite V, Rabs_Zabs. apply Rle_lt_trans with (two_pow 0); [unfold two_pow; simpl; apply IZR_le; lia|]. apply tp_lt. exact Hm. }
    rewrite E. reflexivity.
Qed.
Lemma store_bits nc k v : usable_kind k -> (v = 0 \/ v = 1)%Z -> store nc k v = IZR v.
Proof.
  intros Hk Hv. destruct k as [|b|b|f]; cbn [usable_kind] in Hk; try (apply store_signs; [exact Hk|lia]).
  - destruct Hv as [-> | ->]; reflexivity.
  - cbn [store]. destruct (Z.ltb_spec v 0); [lia|]. assert (P : (1 < 2 ^ b)%Z) by (apply Z.pow_gt_1; lia). rewrite Z.mod_small by lia. reflexivity.
Qed.


Lemma typed_two nc k y c0 c1 : usable_kind k -> unique_labels y = [c0; c1] ->
  lg_targets_typed nc k y = Ok (map (fun v => [if (v =? c0)%Z then store nc k (-1) else 1]) y).
Proof.
  intros Hk E. unfold lg_targets_typed. rewrite E. cbn [List.length]. f_equal. apply map_ext_in. intros v Hv. rewrite <- unique_in, E in Hv. f_equal.
  cbn [index_of]. destruct (v =? c0)%Z eqn:E0.
  - cbn [Z.of_nat]. rewrite (store_bits nc k 0) by auto. destruct (Reqb 0 0) eqn:Q; [reflexivity|rewrite Reqb_false in Q; lra].
  - apply Z.eqb_neq in E0. destruct Hv as [Hv|[Hv|[]]]; [congruence|]. subst. rewrite Z.eqb_refl. cbn [Z.of_nat Pos.of_succ_nat].
    rewrite (store_bits nc k 1) by auto. destruct (Reqb 1 0) eqn:Q; [rewrite Reqb_true in Q; lra|reflexivity].
Qed.
Lemma typed_many nc k y : usable_kind k -> (2 < List.length (unique_labels y))%nat -> lg_targets_typed nc k y = lg_targets y.
Proof.
  intros Hk L. rewrite targets_many by exact L. unfold lg_targets_typed. destruct (unique_labels y) as [|c0 [|c1 [|c2 l]]] eqn:E; cbn [List.length] in L |- *; try lia.
  f_equal. apply map_ext. intros v. apply map_ext. intros c. destruct (v =? c)%Z; apply store_bits; auto.
Qed.
Lemma classes_two y c0 c1 : (c0 < c1)%Z -> (forall v, In v y <-> v = c0 \/ v = c1) -> unique_labels y = [c0; c1].
Proof.
  intros L H. apply unique_of.
  - constructor; [repeat constructor|]. repeat constructor. exact L.
  - intros v. rewrite H. simpl. intuition.
Qed.

(* With features of a signed integer or float type the targets are those of the label encoding: -1 and 1. *)
Theorem C119_signed_types : forall nc k y, signed_kind k -> lg_targets_typed nc k y = lg_targets y.
Proof.
  intros nc k y Hk. assert (U : usable_kind k) by (destruct k; try contradiction; exact Hk).
  destruct (unique_labels y) as [|c0 [|c1 [|c2 l]]] eqn:E.
  - unfold lg_targets_typed, lg_targets. rewrite E. reflexivity.
  - unfold lg_targets_typed, lg_targets. rewrite E. reflexivity.
  - rewrite (typed_two nc k y c0 c1 U E), (targets_two y c0 c1 E). rewrite store_signs by auto. reflexivity.
  - apply typed_many; [exact U|]. rewrite E. simpl. lia.
Qed.
Print Assumptions C119_signed_types.

(* More than two classes are one-hot rows, which every type holds. *)
Theorem C119_multiclass : forall nc k y classes, usable_kind k -> (2 < List.length classes)%nat -> NoDup classes -> (forall v, In v y <-> In v classes) ->
  lg_targets_typed nc k y = lg_targets y.
Proof.
  intros nc k y classes Hk L Nd H. apply typed_many; [exact Hk|]. apply Nat.lt_le_trans with (List.length classes); [exact L|].
  apply NoDup_incl_length; [exact Nd|]. intros v Hv. apply unique_in, H, Hv.
Qed.
Print Assumptions C119_multiclass.

(* Boolean features: -1 is stored as True, so both classes get the target 1. *)
Theorem C119_boolean :
  forall nc y c0 c1, (c0 < c1)%Z -> (forall v, In v y <-> v = c0 \/ v = c1) -> lg_targets_typed nc KBool y = Ok (map (fun _ => [1]) y).
Proof.
  intros nc y c0 c1 L H. rewrite (typed_two nc KBool y c0 c1 I (classes_two y c0 c1 L H)). f_equal. apply map_ext. intros v. destruct (v =? c0)%Z; reflexivity.
Qed.
Print Assumptions C119_boolean.

Theorem C119_labels_refuted : exists y y', lg_targets y <> lg_targets y' /\ forall nc, lg_targets_typed nc KBool y = lg_targets_typed nc KBool y'.
Proof.
  exists [0; 1]%Z, [1; 0]%Z. split.
  - rewrite (targets_two [0; 1]%Z 0 1) by reflexivity. rewrite (targets_two [1; 0]%Z 0 1) by reflexivity. simpl. intros K. injection K. lra.
  - intros nc. rewrite !(C119_boolean nc _ 0 1) by (try lia; simpl; intuition lia). reflexivity.
Qed.
Print Assumptions C119_labels_refuted.

(* Unsigned features: whatever the platform makes of -1, it is not -1. The larger class still gets 1. *)
Theorem C119_unsigned :
  forall nc b y c0 c1, (1 <= b)%Z -> (c0 < c1)%Z -> (forall v, In v y <-> v = c0 \/ v = c1) -> (0 <= nc b)%Z ->
    exists t, 0 <= t /\ lg_targets_typed nc (KUnsigned b) y = Ok (map (fun v => [if (v =? c0)%Z then t else 1]) y).
Proof.
  intros nc b y c0 c1 Hb L H Hn. exists (IZR (nc b)). split; [apply IZR_le; exact Hn|]. apply (typed_two nc (KUnsigned b) y c0 c1); [exact Hb|]. apply classes_two; assumption.
Qed.
Print Assumptions C119_unsigned.

Lemma sum_cons a l : rsum (a :: l) = a + rsum l.
Proof. reflexivity. Qed.
Lemma log_loss_decreasing t s s' : 0 <= t -> s <= s' -> ln (1 + exp (- (t * s'))) <= ln (1 + exp (- (t * s))).
Proof.
  intros Ht Hs. pose proof (exp_pos (- (t * s'))). pose proof (exp_pos (- (t * s))).
  assert (E : exp (- (t * s')) <= exp (- (t * s))).
  { destruct (Req_dec (t * s) (t * s')) as [->|N]; [lra|]. left. apply exp_increasing. assert (t * s <= t * s') by (apply Rmult_le_compat_l; assumption). lra. }
  destruct (Req_dec (exp (- (t * s'))) (exp (- (t * s)))) as [->|N]; [lra|]. left. apply ln_increasing; lra.
Qed.
Lemma log_loss_strict s s' : s < s' -> ln (1 + exp (- (1 * s'))) < ln (1 + exp (- (1 * s))).
Proof. intros Hs. pose proof (exp_pos (- (1 * s'))). apply ln_increasing; [lra|]. apply Rplus_lt_compat_l, exp_increasing. lra. Qed.

(* In both cases the training loss (with any weights) decreases for ever as the intercept grows: it is smallest for models that
   put every point in the larger class. *)
Theorem C119_one_class_learned :
  forall nc k y c0 c1 xs w b b', (k = KBool \/ exists bits, k = KUnsigned bits /\ (1 <= bits)%Z /\ (0 <= nc bits)%Z) ->
    (c0 < c1)%Z -> (forall v, In v y <-> v = c0 \/ v = c1) -> List.length xs = List.length y -> b < b' ->
    exists ts, lg_targets_typed nc k y = Ok (map (fun t => [t]) ts) /\ logistic_mean w b' xs ts < logistic_mean w b xs ts.
Proof.
  intros nc k y c0 c1 xs w b b' Hk L H Hl Hb.
  assert (T : exists t, 0 <= t /\ lg_targets_typed nc k y = Ok (map (fun v => [if (v =? c0)%Z then t else 1]) y)).
  { destruct Hk as [-> | (bits & -> & Hb' & Hn)]; [|apply (C119_unsigned nc bits y c0 c1); assumption].
    exists 1. split; [lra|]. rewrite (C119_boolean nc y c0 c1 L H). f_equal. apply map_ext. intros v. destruct (v =? c0)%Z; reflexivity. }
  destruct T as (t & Ht & E). exists (map (fun v => if (v =? c0)%Z then t else 1) y). split; [rewrite E, map_map; reflexivity|].
  unfold logistic_mean. set (ts := map (fun v => if (v =? c0)%Z then t else 1) y).
  assert (One : In 1 ts).
  { unfold ts. apply in_map_iff. exists c1. split; [destruct (Z.eqb_spec c1 c0); [lia|reflexivity]|apply H; auto]. }
  assert (Pos : Forall (fun a => 0 <= a) ts) by (unfold ts; apply Forall_map, Forall_forall; intros v _; destruct (v =? c0)%Z; lra).
  assert (Lt : List.length xs = List.length ts) by (unfold ts; rewrite map_length; exact Hl).
  assert (S : rsum (map2 (fun x t => ln (1 + exp (- (t * (dot w x + b'))))) xs ts) < rsum (map2 (fun x t => ln (1 + exp (- (t * (dot w x + b))))) xs ts)).
  { clearbody ts. clear - One Pos Lt Hb.
    assert (G : forall xs ts, Forall (fun a => 0 <= a) ts -> rsum (map2 (fun x t => ln (1 + exp (- (t * (dot w x + b'))))) xs ts) <= rsum (map2 (fun x t => ln (1 + exp (- (t * (dot w x + b))))) xs ts)).
    { induction xs0 as [|x xs0 IH]; intros [|s ts0] P; cbn [map2]; try (simpl; lra). inversion P; subst. rewrite !sum_cons. apply Rplus_le_compat; [|apply IH; assumption].
      apply log_loss_decreasing; lra. }
    revert ts One Pos Lt. induction xs as [|x xs IH]; intros [|s ts] One Pos Lt; cbn [List.length] in Lt; try discriminate; [destruct One|].
    cbn [map2]. rewrite !sum_cons. inversion Pos; subst. destruct One as [-> |One].
    - apply Rplus_lt_le_compat; [apply log_loss_strict; lra|apply G; assumption].
    - apply Rplus_le_lt_compat; [apply log_loss_decreasing; lra|apply IH; auto]. }
  unfold rmean. rewrite !map2_length by exact Lt. apply Rmult_lt_compat_r; [|exact S]. apply Rinv_0_lt_compat, lt_0_INR.
  destruct xs; [|simpl; lia]. destruct ts; [destruct One|discriminate].
Qed.
Print Assumptions C119_one_class_learned.

Example C119_case :
  signed_kind (KSigned 64) /\ signed_kind (KFloat float32) /\ usable_kind (KUnsigned 8) /\ (forall v, In v [3; 5; 5]%Z <-> v = 3%Z \/ v = 5%Z) /\
  lg_targets_typed (fun _ => 255%Z) (KUnsigned 8) [3; 5; 5]%Z = Ok [[255]; [1]; [1]] /\ lg_targets_typed (fun _ => 255%Z) (KFloat float64) [3; 5; 5]%Z = Ok [[-1]; [1]; [1]].
Proof.
  split; [simpl; lia|]. split; [simpl; lia|]. split; [simpl; lia|]. split; [simpl; intuition lia|].
  split; [rewrite (typed_two _ _ _ 3 5); [reflexivity|simpl; lia|reflexivity]|]. rewrite C119_signed_types by (simpl; lia). rewrite (targets_two _ 3 5); reflexivity.
Qed.
