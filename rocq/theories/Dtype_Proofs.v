From Coq Require Import Reals List Bool ZArith Lra Lia.
From Verif Require Import PyBase RList XReal Estim_Model Dtype_Model Dtype_Spec.
Import ListNotations.
Local Open Scope R_scope.

Lemma tp_pos e : 0 < two_pow e.
Proof. apply powerRZ_lt. lra. Qed.
Lemma tp_add a b : two_pow (a + b) = two_pow a * two_pow b.
Proof. apply powerRZ_add. lra. Qed.
Lemma tp_IZR s : (0 <= s)%Z -> two_pow s = IZR (2 ^ s).
Proof. intros H. rewrite <- (Z2Nat.id s H). unfold two_pow. rewrite <- pow_powerRZ. apply pow_IZR. Qed.
Lemma tp_le a b : (a <= b)%Z -> two_pow a <= two_pow b.
Proof.
  intros H. replace b with (a + (b - a))%Z by ring. rewrite tp_add, (tp_IZR (b - a)) by lia.
  assert (1 <= IZR (2 ^ (b - a))) by (apply IZR_le; assert (0 < 2 ^ (b - a))%Z by (apply Z.pow_pos_nonneg; lia); lia).
  pose proof (tp_pos a). nra.
Qed.
Lemma tp_lt a b : (a < b)%Z -> two_pow a < two_pow b.
Proof.
  intros H. replace b with ((b - 1) + 1)%Z by ring. rewrite tp_add. replace (two_pow 1) with 2 by (unfold two_pow; simpl; ring).
  assert (two_pow a <= two_pow (b - 1)) by (apply tp_le; lia). pose proof (tp_pos a). lra.
Qed.
Lemma tp_lt_inv a b : two_pow a < two_pow b -> (a < b)%Z.
Proof. intros H. destruct (Z_lt_le_dec a b) as [|K]; [assumption|]. apply tp_le in K. lra. Qed.
Lemma tp_le_inv a b : two_pow a <= two_pow b -> (a <= b)%Z.
Proof. intros H. destruct (Z_le_gt_dec a b) as [|K]; [assumption|]. assert (L : (b < a)%Z) by lia. apply tp_lt in L. lra. Qed.

(* ---------- integers ---------- *)
Lemma div_even_half m s : (0 <= s)%Z -> (2 * Z.abs (m - div_even m s * 2 ^ s) <= 2 ^ s)%Z.
Proof.
  intros Hs. assert (P : (0 < 2 ^ s)%Z) by (apply Z.pow_pos_nonneg; lia). unfold div_even.
  pose proof (Z.div_mod m (2 ^ s) ltac:(lia)) as D. pose proof (Z.mod_pos_bound m (2 ^ s) P) as B.
  set (q := (m / 2 ^ s)%Z) in *. set (r := (m mod 2 ^ s)%Z) in *. destruct (Z.compare_spec (2 * r) (2 ^ s)); [destruct (Z.even q)| |]; nia.
Qed.
Lemma div_even_nearest m s k : (0 <= s)%Z -> (Z.abs (m - div_even m s * 2 ^ s) <= Z.abs (m - k * 2 ^ s))%Z.
Proof.
  intros Hs. pose proof (div_even_half m s Hs) as H. assert (P : (0 < 2 ^ s)%Z) by (apply Z.pow_pos_nonneg; lia).
  destruct (Z.eq_dec k (div_even m s)) as [->|N]; [lia|].
  set (q := div_even m s) in *. set (d := (2 ^ s)%Z) in *. assert (A : (d <= Z.abs ((q - k) * d))%Z) by (rewrite Z.abs_mul; nia). lia.
Qed.
Lemma div_even_exact a s : (0 <= s)%Z -> div_even (a * 2 ^ s) s = a.
Proof.
  intros Hs. pose proof (div_even_nearest (a * 2 ^ s) s a Hs) as H. assert (P : (0 < 2 ^ s)%Z) by (apply Z.pow_pos_nonneg; lia). nia.
Qed.
Lemma div_even_scale m s k : (0 <= s)%Z -> (0 <= k)%Z -> div_even (m * 2 ^ k) (s + k) = div_even m s.
Proof.
  intros Hs Hk. assert (P : (0 < 2 ^ s)%Z) by (apply Z.pow_pos_nonneg; lia). assert (Q : (0 < 2 ^ k)%Z) by (apply Z.pow_pos_nonneg; lia).
  unfold div_even. rewrite Z.pow_add_r by lia. rewrite Z.div_mul_cancel_r by lia. rewrite Z.mul_mod_distr_r by lia.
  assert (E : (2 * (m mod 2 ^ s * 2 ^ k) ?= 2 ^ s * 2 ^ k)%Z = (2 * (m mod 2 ^ s) ?= 2 ^ s)%Z).
  { destruct (Z.compare_spec (2 * (m mod 2 ^ s)) (2 ^ s)) as [E|E|E]; [apply Z.compare_eq_iff|apply Z.compare_lt_iff|apply Z.compare_gt_iff]; nia. }
  rewrite E. reflexivity.
Qed.
Lemma div_even_bound m s p : (0 <= s)%Z -> (0 <= p)%Z -> (Z.abs m < 2 ^ (p + s))%Z -> (Z.abs (div_even m s) <= 2 ^ p)%Z.
Proof.
  intros Hs Hp H. pose proof (div_even_half m s Hs) as K. rewrite Z.pow_add_r in H by lia.
  assert (P : (0 < 2 ^ s)%Z) by (apply Z.pow_pos_nonneg; lia). assert (Q : (0 < 2 ^ p)%Z) by (apply Z.pow_pos_nonneg; lia). nia.
Qed.

(* ---------- magnitudes ---------- *)
Definition lead (x : dyadic) : Z := (Z.log2 (Z.abs (dm x)) + de x)%Z.
Lemma lead_spec x : dm x <> 0%Z -> two_pow (lead x) <= Rabs (d2r x) < two_pow (lead x + 1).
Proof.
  intros N. destruct (Z.log2_spec (Z.abs (dm x)) ltac:(lia)) as [A B]. unfold lead, d2r.
  rewrite Rabs_mult, (Rabs_right (two_pow (de x))) by (left; apply tp_pos). rewrite Rabs_Zabs.
  assert (G : (0 <= Z.log2 (Z.abs (dm x)))%Z) by apply Z.log2_nonneg.
  replace (Z.log2 (Z.abs (dm x)) + de x + 1)%Z with (Z.succ (Z.log2 (Z.abs (dm x))) + de x)%Z by ring.
  rewrite !tp_add, !tp_IZR by lia. pose proof (tp_pos (de x)). apply IZR_le in A. apply IZR_lt in B. split; [apply Rmult_le_compat_r|apply Rmult_lt_compat_r]; try lra. rewrite tp_IZR by lia. exact B.
Qed.
Lemma d2r_zero x : d2r x = 0 <-> dm x = 0%Z.
Proof.
  unfold d2r. pose proof (tp_pos (de x)). split.
  - intros H0. apply Rmult_integral in H0. destruct H0 as [H0|H0]; [apply eq_IZR in H0; exact H0|lra].
  - intros ->. ring.
Qed.
Lemma too_big_spec f x : too_big f x = true <-> two_pow (emax f) <= Rabs (d2r x).
Proof.
  unfold too_big. destruct (Z.eqb_spec (dm x) 0) as [E|N]; cbn [negb andb].
  - apply d2r_zero in E. rewrite E, Rabs_R0. pose proof (tp_pos (emax f)). split; [discriminate|lra].
  - rewrite Z.leb_le. fold (lead x). destruct (lead_spec x N) as [A B]. split.
    + intros H. apply tp_le in H. lra.
    + intros H. assert (K : two_pow (emax f) < two_pow (lead x + 1)) by lra. apply tp_lt_inv in K. lia.
Qed.

(* ---------- rounding ---------- *)
Lemma place_split x E : (de x < E)%Z -> two_pow E = IZR (2 ^ (E - de x)) * two_pow (de x).
Proof. intros H. rewrite <- tp_IZR, <- tp_add by lia. f_equal. ring. Qed.
Lemma dist_scaled x E k : (de x < E)%Z -> Rabs (d2r x - IZR k * two_pow E) = IZR (Z.abs (dm x - k * 2 ^ (E - de x))) * two_pow (de x).
Proof.
  intros H. rewrite (place_split x E H). unfold d2r.
  replace (IZR (dm x) * two_pow (de x) - IZR k * (IZR (2 ^ (E - de x)) * two_pow (de x)))
    with (IZR (dm x - k * 2 ^ (E - de x)) * two_pow (de x)) by (rewrite minus_IZR, mult_IZR; ring).
  rewrite Rabs_mult, (Rabs_right (two_pow (de x))) by (left; apply tp_pos). rewrite Rabs_Zabs. reflexivity.
Qed.

Definition rnd (f : fmt) (x : dyadic) : R := d2r (round_to f x).

(* nearest among the multiples of the last place *)
Lemma rnd_multiples f x k : (last_place f x <= de x)%Z \/ Rabs (d2r x - rnd f x) <= Rabs (d2r x - IZR k * two_pow (last_place f x)).
Proof.
  destruct (Z_le_gt_dec (last_place f x) (de x)) as [H|H]; [left; exact H|right].
  unfold rnd, round_to. destruct (Z.leb_spec (last_place f x) (de x)) as [K|K]; [lia|].
  change (d2r (Dy (div_even (dm x) (last_place f x - de x)) (last_place f x))) with (IZR (div_even (dm x) (last_place f x - de x)) * two_pow (last_place f x)).
  rewrite !dist_scaled by lia. apply Rmult_le_compat_r; [left; apply tp_pos|]. apply IZR_le. apply div_even_nearest. lia.
Qed.
Lemma rnd_same f x : (last_place f x <= de x)%Z -> rnd f x = d2r x.
Proof. intros H. unfold rnd, round_to. destruct (Z.leb_spec (last_place f x) (de x)); [reflexivity|lia]. Qed.
Lemma rnd_half f x : 2 * Rabs (d2r x - rnd f x) <= two_pow (last_place f x).
Proof.
  destruct (Z_le_gt_dec (last_place f x) (de x)) as [H|H].
  - rewrite rnd_same by exact H. rewrite Rminus_diag_eq, Rabs_R0 by reflexivity. pose proof (tp_pos (last_place f x)). lra.
  - unfold rnd, round_to. destruct (Z.leb_spec (last_place f x) (de x)) as [K|K]; [lia|].
    change (d2r (Dy (div_even (dm x) (last_place f x - de x)) (last_place f x))) with (IZR (div_even (dm x) (last_place f x - de x)) * two_pow (last_place f x)).
    rewrite dist_scaled by lia. rewrite (place_split x (last_place f x)) by lia.
    pose proof (div_even_half (dm x) (last_place f x - de x) ltac:(lia)) as D. apply IZR_le in D. rewrite mult_IZR in D. pose proof (tp_pos (de x)). nra.
Qed.

(* a number of the format is a multiple of the last place, or below the binade of x *)
Lemma grid_or_below f x m e : (0 < prec f)%Z -> (Z.abs m < 2 ^ prec f)%Z -> (emin f <= e)%Z ->
  (exists k, IZR m * two_pow e = IZR k * two_pow (last_place f x)) \/
  (last_place f x = (lead x - (prec f - 1))%Z /\ Rabs (IZR m * two_pow e) < two_pow (lead x)).
Proof.
  intros Hp Hm He. destruct (Z_le_gt_dec (last_place f x) e) as [K|K].
  - left. exists (m * 2 ^ (e - last_place f x))%Z. rewrite mult_IZR, <- tp_IZR by lia. rewrite Rmult_assoc, <- tp_add. do 2 f_equal. ring.
  - right. unfold last_place in K |- *. fold (lead x) in *. split; [lia|].
    rewrite Rabs_mult, (Rabs_right (two_pow e)) by (left; apply tp_pos). rewrite Rabs_Zabs.
    assert (A : IZR (Z.abs m) * two_pow e < IZR (2 ^ prec f) * two_pow e) by (apply Rmult_lt_compat_r; [apply tp_pos|apply IZR_lt; exact Hm]).
    rewrite <- tp_IZR, <- tp_add in A by lia. assert (B : two_pow (prec f + e) <= two_pow (lead x)) by (apply tp_le; lia). lra.
Qed.

Lemma far_side (x b y r : R) : 0 <= b -> b <= Rabs x -> Rabs y < b -> Rabs (x - r) <= Rabs (x - b) -> Rabs (x - r) <= Rabs (x - - b) -> Rabs (x - r) <= Rabs (x - y).
Proof. intros Hb Hx Hy H1 H2. revert Hx Hy H1 H2. unfold Rabs. repeat destruct Rcase_abs; lra. Qed.

Lemma rnd_nearest f x m e : (0 < prec f)%Z -> (Z.abs m < 2 ^ prec f)%Z -> (emin f <= e)%Z ->
  Rabs (d2r x - rnd f x) <= Rabs (d2r x - IZR m * two_pow e).
Proof.
  intros Hp Hm He. destruct (Z_le_gt_dec (last_place f x) (de x)) as [H|H].
  - rewrite rnd_same by exact H. rewrite Rminus_diag_eq, Rabs_R0 by reflexivity. apply Rabs_pos.
  - destruct (grid_or_below f x m e Hp Hm He) as [[k ->]|[E L]].
    + destruct (rnd_multiples f x k) as [K|K]; [lia|exact K].
    + destruct (Z.eq_dec (dm x) 0) as [Z0|N].
      * unfold rnd, round_to. destruct (Z.leb_spec (last_place f x) (de x)); [lia|]. rewrite Z0.
        pose proof (div_even_exact 0 (last_place f x - de x) ltac:(lia)) as D. rewrite Z.mul_0_l in D. rewrite D.
        apply d2r_zero in Z0. rewrite Z0. unfold d2r. cbn [dm de]. rewrite Rmult_0_l, Rminus_0_r, Rabs_R0. apply Rabs_pos.
      * destruct (lead_spec x N) as [A _].
        assert (B : two_pow (lead x) = IZR (2 ^ (prec f - 1)) * two_pow (last_place f x)) by (rewrite <- tp_IZR, <- tp_add by lia; f_equal; lia).
        assert (B' : - two_pow (lead x) = IZR (- 2 ^ (prec f - 1)) * two_pow (last_place f x)) by (rewrite opp_IZR, B; ring).
        apply (far_side _ (two_pow (lead x))); auto.
        -- left. apply tp_pos.
        -- rewrite B. destruct (rnd_multiples f x (2 ^ (prec f - 1))) as [K|K]; [lia|exact K].
        -- rewrite B'. destruct (rnd_multiples f x (- 2 ^ (prec f - 1))) as [K|K]; [lia|exact K].
Qed.

(* numbers of the format are kept *)
Lemma rnd_keeps f x m e : (0 < prec f)%Z -> (Z.abs m < 2 ^ prec f)%Z -> (emin f <= e)%Z -> d2r x = IZR m * two_pow e -> rnd f x = d2r x.
Proof.
  intros Hp Hm He E. pose proof (rnd_nearest f x m e Hp Hm He) as H. rewrite <- E in H. rewrite (Rminus_diag_eq (d2r x) (d2r x)), Rabs_R0 in H by reflexivity.
  pose proof (Rabs_pos (d2r x - rnd f x)). destruct (Req_dec (d2r x - rnd f x) 0) as [K|K]; [lra|]. apply Rabs_pos_lt in K. lra.
Qed.

(* the result is a number of the format, up to the bound on its magnitude *)
Lemma rnd_in f x : (1 < prec f)%Z -> exists m e, rnd f x = IZR m * two_pow e /\ (Z.abs m < 2 ^ prec f)%Z /\ (emin f <= e)%Z.
Proof.
  intros Hp. destruct (Z_le_gt_dec (last_place f x) (de x)) as [H|H].
  - rewrite rnd_same by exact H. exists (dm x), (de x). split; [reflexivity|]. unfold last_place in H. split; [|lia].
    destruct (Z.eq_dec (dm x) 0) as [->|N]; [apply Z.pow_pos_nonneg; lia|]. apply Z.log2_lt_pow2; lia.
  - unfold rnd, round_to. destruct (Z.leb_spec (last_place f x) (de x)) as [K|K]; [lia|].
    assert (B : (Z.abs (div_even (dm x) (last_place f x - de x)) <= 2 ^ prec f)%Z).
    { apply div_even_bound; [lia|lia|]. destruct (Z.eq_dec (dm x) 0) as [->|N]; [apply Z.pow_pos_nonneg; lia|]. apply Z.log2_lt_pow2; [lia|].
      unfold last_place. lia. }
    set (q := div_even (dm x) (last_place f x - de x)) in *. assert (G : (emin f <= last_place f x)%Z) by (unfold last_place; lia).
    destruct (Z.eq_dec (Z.abs q) (2 ^ prec f)) as [E|N].
    + exists (Z.sgn q * 2 ^ (prec f - 1))%Z, (last_place f x + 1)%Z.
      assert (P : (2 ^ prec f = 2 * 2 ^ (prec f - 1))%Z) by (rewrite <- Z.pow_succ_r by lia; f_equal; lia).
      assert (P0 : (0 < 2 ^ (prec f - 1))%Z) by (apply Z.pow_pos_nonneg; lia). split; [|split; [|lia]].
      * unfold d2r. cbn [dm de]. rewrite tp_add. replace (two_pow 1) with 2 by (unfold two_pow; simpl; ring). 
        replace (IZR q) with (IZR (Z.abs q * Z.sgn q)) by (rewrite Z.abs_sgn; reflexivity). rewrite E, P, !mult_IZR. ring.
      * rewrite Z.abs_mul, (Z.abs_eq (2 ^ (prec f - 1))) by lia. destruct (Z.sgn_spec q) as [[? ->]|[[? ->]|[? ->]]]; simpl Z.abs; lia.
    + exists q, (last_place f x). split; [reflexivity|]. split; [lia|exact G].
Qed.

(* equal numbers are rounded alike *)
Lemma same_rnd_aux f x k : (0 <= k)%Z -> rnd f (Dy (dm x * 2 ^ k) (de x - k)) = rnd f x.
Proof.
  intros Hk. set (x' := Dy (dm x * 2 ^ k) (de x - k)).
  assert (V : d2r x' = d2r x).
  { unfold x', d2r. cbn [dm de]. rewrite mult_IZR, <- tp_IZR by lia. rewrite Rmult_assoc, <- tp_add. do 2 f_equal. ring. }
  destruct (Z.eq_dec (dm x) 0) as [Z0|N].
  - assert (D : forall z, dm z = 0%Z -> rnd f z = 0).
    { intros z Hz. unfold rnd, round_to. destruct (Z.leb_spec (last_place f z) (de z)); [apply d2r_zero; exact Hz|]. rewrite Hz.
      pose proof (div_even_exact 0 (last_place f z - de z) ltac:(lia)) as D. rewrite Z.mul_0_l in D. rewrite D. apply d2r_zero. reflexivity. }
    rewrite !D; auto. unfold x'. cbn [dm]. rewrite Z0. ring.
  - assert (L : last_place f x' = last_place f x).
    { unfold last_place, x'. cbn [dm de]. rewrite Z.abs_mul, (Z.abs_eq (2 ^ k)) by (assert (0 < 2 ^ k)%Z by (apply Z.pow_pos_nonneg; lia); lia).
      rewrite Z.log2_mul_pow2 by lia. f_equal. ring. }
    destruct (Z_le_gt_dec (last_place f x) (de x')) as [H|H].
    + rewrite (rnd_same f x') by lia. rewrite rnd_same; [exact V|]. unfold x' in H. cbn [de] in H. lia.
    + destruct (Z_le_gt_dec (last_place f x) (de x)) as [H'|H'].
      * rewrite (rnd_same f x H'). rewrite <- V. unfold rnd, round_to. rewrite L. destruct (Z.leb_spec (last_place f x) (de x')); [lia|].
        assert (M : (dm x' = (dm x * 2 ^ (de x - last_place f x)) * 2 ^ (last_place f x - de x'))%Z).
        { unfold x'. cbn [dm de]. rewrite <- Z.mul_assoc, <- Z.pow_add_r by (unfold x' in H; cbn [de] in H; lia). do 2 f_equal. ring. }
        rewrite M at 1. rewrite div_even_exact by lia. rewrite V. unfold d2r. cbn [dm de]. rewrite mult_IZR, <- tp_IZR by lia.
        rewrite Rmult_assoc, <- tp_add. do 2 f_equal. ring.
      * unfold rnd, round_to. rewrite L. destruct (Z.leb_spec (last_place f x) (de x')); [lia|]. destruct (Z.leb_spec (last_place f x) (de x)); [lia|].
        replace (last_place f x - de x')%Z with ((last_place f x - de x) + k)%Z by (unfold x'; cbn [de]; ring).
        unfold x'. cbn [dm]. rewrite div_even_scale by lia. reflexivity.
Qed.
Lemma same_rnd f x y : d2r x = d2r y -> rnd f x = rnd f y.
Proof.
  assert (G : forall x y, (de y <= de x)%Z -> d2r x = d2r y -> rnd f x = rnd f y).
  { clear x y. intros x y H E. rewrite <- (same_rnd_aux f x (de x - de y)) by lia. f_equal. destruct y as [m e]. cbn [de] in *. f_equal; [|ring].
    unfold d2r in E. cbn [dm de] in E. replace (two_pow (de x)) with (IZR (2 ^ (de x - e)) * two_pow e) in E
      by (rewrite <- tp_IZR, <- tp_add by lia; f_equal; ring).
    rewrite <- Rmult_assoc, <- mult_IZR in E. apply Rmult_eq_reg_r in E; [apply eq_IZR; exact E|]. pose proof (tp_pos e). lra. }
  intros E. destruct (Z_le_gt_dec (de y) (de x)); [apply G; auto|]. symmetry. apply G; [lia|auto].
Qed.

Lemma rnd_mono f x y : (1 < prec f)%Z -> d2r x <= d2r y -> rnd f x <= rnd f y.
Proof.
  intros Hp H. destruct (Rle_dec (rnd f x) (rnd f y)) as [|N]; [assumption|]. exfalso.
  destruct (rnd_in f x Hp) as (m & e & Em & Bm & Be). destruct (rnd_in f y Hp) as (m' & e' & Em' & Bm' & Be').
  pose proof (rnd_nearest f x m' e' ltac:(lia) Bm' Be') as A. pose proof (rnd_nearest f y m e ltac:(lia) Bm Be) as B. rewrite <- Em' in A. rewrite <- Em in B.
  assert (K : d2r x = d2r y).
  { revert A B. unfold Rabs. repeat destruct Rcase_abs; intros; lra. }
  apply (same_rnd f) in K. lra.
Qed.

Lemma convert_fin f x r : convert f x = Fin r <-> rnd f x = r /\ Rabs r < two_pow (emax f).
Proof.
  unfold convert. fold (rnd f x). destruct (too_big f (round_to f x)) eqn:T.
  - apply too_big_spec in T. fold (rnd f x) in T. split.
    + destruct (0 <? dm (round_to f x))%Z; discriminate.
    + intros [<- H]. lra.
  - assert (N : ~ two_pow (emax f) <= Rabs (rnd f x)) by (intros K; apply too_big_spec in K; congruence). split.
    + intros E. injection E as <-. split; [reflexivity|lra].
    + intros [-> _]. reflexivity.
Qed.
