From Coq Require Import Reals List Bool Lra Arith.
From Verif Require Import PyBase RList XReal Costs_Model Displace_Model.
Import ListNotations.
Local Open Scope R_scope.

Lemma xsum_fin l : xsum (map Fin l) = Fin (rsum l).
Proof.
  induction l as [|a l IH]; [reflexivity|].
  change (xsum (map Fin (a :: l))) with (xadd (Fin a) (xsum (map Fin l))). rewrite IH. reflexivity.
Qed.

Lemma dot_self g : rsum (map (fun a => a * a) g) = sqnorm g.
Proof. unfold sqnorm, dot. rewrite map2_same. reflexivity. Qed.

Lemma xnorm_fin g : xnorm (map Fin g) = Fin (norm2 g).
Proof.
  unfold xnorm. rewrite map_map. simpl.
  rewrite <- (map_map (fun a => a * a) Fin). rewrite xsum_fin, dot_self. simpl.
  pose proof (sqnorm_nonneg g). unfold Rltb. destruct (Rlt_dec (sqnorm g) 0); [lra|]. reflexivity.
Qed.

Lemma xmin_fin a b : xmin (Fin a) (Fin b) = Fin (Rmin a b).
Proof.
  unfold xmin, xlt, Rltb. destruct (Rlt_dec b a); f_equal.
  - rewrite Rmin_right; lra.
  - rewrite Rmin_left; lra.
Qed.

Lemma normalize_row_fin thr lam g :
  norm2 g <> 0 -> lam <> 0 ->
  normalize_row thr (Fin lam) (map Fin g) = map Fin (vscal (Rmin thr (norm2 g) / norm2 g / lam) g).
Proof.
  intros Hn Hl. unfold normalize_row. rewrite xnorm_fin, xmin_fin. unfold vscal. rewrite !map_map.
  apply map_ext. intros a. simpl.
  destruct (Reqb (norm2 g) 0) eqn:E; [apply Reqb_true in E; contradiction|]. simpl.
  destruct (Reqb lam 0) eqn:E'; [apply Reqb_true in E'; contradiction|]. f_equal. field. auto.
Qed.

Lemma nonzero_norm g : Exists (fun a => a <> 0) g -> 0 < norm2 g.
Proof.
  intros H. destruct (Rle_lt_or_eq_dec 0 (norm2 g) (norm2_nonneg g)) as [|E]; [assumption|].
  exfalso. symmetry in E. apply norm2_zero in E. rewrite Exists_exists in H. rewrite Forall_forall in E.
  destruct H as [a [Hi Ha]]. exact (Ha (E a Hi)).
Qed.

Lemma displacement_shape thr lam g :
  0 < thr -> 0 < lam -> Exists (fun a => a <> 0) g ->
  exists t d, 0 < t /\ d = vscal t g /\
              normalize_row thr (Fin lam) (map Fin g) = map Fin d /\
              norm2 d = Rmin thr (norm2 g) / lam.
Proof.
  intros Ht Hl Hg. pose proof (nonzero_norm g Hg) as Hn.
  assert (Hm : 0 < Rmin thr (norm2 g)) by (apply Rmin_glb_lt; lra).
  exists (Rmin thr (norm2 g) / norm2 g / lam), (vscal (Rmin thr (norm2 g) / norm2 g / lam) g).
  assert (Hp : 0 < Rmin thr (norm2 g) / norm2 g / lam).
  { unfold Rdiv. apply Rmult_lt_0_compat; [apply Rmult_lt_0_compat|]; try assumption; apply Rinv_0_lt_compat; assumption. }
  split; [exact Hp|]. split; [reflexivity|]. split; [apply normalize_row_fin; lra|].
  rewrite norm2_vscal, Rabs_right by lra. field. lra.
Qed.

Lemma displacement_neg thr lam g :
  0 < thr -> lam < 0 -> Exists (fun a => a <> 0) g ->
  exists t d, t < 0 /\ d = vscal t g /\
              normalize_row thr (Fin lam) (map Fin g) = map Fin d /\
              norm2 d = Rmin thr (norm2 g) / - lam.
Proof.
  intros Ht Hl Hg. pose proof (nonzero_norm g Hg) as Hn.
  assert (Hm : 0 < Rmin thr (norm2 g)) by (apply Rmin_glb_lt; lra).
  exists (Rmin thr (norm2 g) / norm2 g / lam), (vscal (Rmin thr (norm2 g) / norm2 g / lam) g).
  assert (Hp : Rmin thr (norm2 g) / norm2 g / lam < 0).
  { replace (Rmin thr (norm2 g) / norm2 g / lam) with (- (Rmin thr (norm2 g) / norm2 g * / - lam)) by (field; lra).
    assert (0 < Rmin thr (norm2 g) / norm2 g * / - lam); [|lra].
    unfold Rdiv. apply Rmult_lt_0_compat; [apply Rmult_lt_0_compat|]; try assumption; apply Rinv_0_lt_compat; lra. }
  split; [exact Hp|]. split; [reflexivity|]. split; [apply normalize_row_fin; lra|].
  rewrite norm2_vscal, Rabs_left by lra. field. lra.
Qed.

Lemma norm2_all0 g : Forall (fun a => a = 0) g -> norm2 g = 0.
Proof.
  intros H. unfold norm2. replace (sqnorm g) with 0; [apply sqrt_0|].
  unfold sqnorm, dot. rewrite map2_same. induction H as [|a l Ha H IH]; simpl; [reflexivity|].
  rewrite Ha, <- IH. ring.
Qed.

(* a zero gradient row gives NaN, whatever lambda *)
Lemma zero_row_nan thr lam g :
  g <> [] -> Forall (fun a => a = 0) g -> normalize_row thr lam (map Fin g) = map (fun _ => NaN) g.
Proof.
  intros Hne H. unfold normalize_row. rewrite xnorm_fin, (norm2_all0 g H).
  rewrite map_map. apply map_ext_in. intros a Ha. rewrite Forall_forall in H. rewrite (H a Ha).
  simpl. destruct (Reqb 0 0) eqn:E; [|apply Reqb_false in E; contradiction]. reflexivity.
Qed.

(* lambda = 0 gives non-finite entries *)
Lemma lam0_not_finite thr g :
  g <> [] -> Forall (fun v => isfinite v = false) (normalize_row thr (Fin 0) g).
Proof.
  intros _. unfold normalize_row. apply Forall_map. apply Forall_forall. intros a _.
  destruct (xmul (xdiv a (xnorm g)) (xmin (Fin thr) (xnorm g))); simpl; try reflexivity.
  - destruct (Reqb 0 0) eqn:E; [|apply Reqb_false in E; contradiction]. destruct (Reqb r 0); [reflexivity|].
    destruct (Rltb r 0); reflexivity.
  - destruct (Rltb 0 0); reflexivity.
  - destruct (Rltb 0 0); reflexivity.
Qed.

Lemma existsb_row (l : list (list xr)) row a :
  In row l -> In a row -> isfinite a = false -> check_tensor_validity l = true.
Proof.
  intros H1 H2 H3. unfold check_tensor_validity. apply existsb_exists. exists row. split; [assumption|].
  apply existsb_exists. exists a. split; [assumption|]. rewrite H3. reflexivity.
Qed.

Definition some_not_finite (t : list (list xr)) : Prop := exists row a, In row t /\ In a row /\ isfinite a = false.

Lemma check_iff t : check_tensor_validity t = true <-> some_not_finite t.
Proof.
  split.
  - intros H. apply existsb_exists in H. destruct H as [row [H1 H]]. apply existsb_exists in H.
    destruct H as [a [H2 H3]]. exists row, a. split; [exact H1|]. split; [exact H2|]. destruct (isfinite a); [discriminate|reflexivity].
  - intros [row [a [H1 [H2 H3]]]]. exact (existsb_row t row a H1 H2 H3).
Qed.

Lemma not_finite_undisplaced Row (solve : Row -> vec -> option vec -> Result Row) thr lam g gl xi zeta :
  some_not_finite (map (normalize_row thr lam) g) \/
  (exists l, gl = Some l /\ some_not_finite (map (normalize_row thr lam) l)) ->
  displace_samples Row solve thr lam g gl xi zeta = Ok (xi, zeta).
Proof.
  intros H. unfold displace_samples, invalid_displacement, get_optimal_displacement; simpl.
  destruct H as [H|[l [-> H]]].
  - apply check_iff in H. rewrite H. reflexivity.
  - apply check_iff in H. simpl. rewrite H, orb_true_r. reflexivity.
Qed.

(* one zero-gradient sample, or lambda = 0, disables the displacement of the whole batch *)
Lemma zero_gradient_disables Row (solve : Row -> vec -> option vec -> Result Row) thr lam g gl xi zeta z :
  In (map Fin z) g -> z <> [] -> Forall (fun a => a = 0) z ->
  displace_samples Row solve thr lam g gl xi zeta = Ok (xi, zeta).
Proof.
  intros Hi Hz H0. apply not_finite_undisplaced. left.
  destruct z as [|z0 z]; [contradiction|].
  exists (normalize_row thr lam (map Fin (z0 :: z))), NaN.
  split; [apply in_map; exact Hi|]. rewrite zero_row_nan by assumption. split; [left; reflexivity|reflexivity].
Qed.

Lemma lambda_zero_disables Row (solve : Row -> vec -> option vec -> Result Row) thr g gl xi zeta row :
  In row g -> row <> [] -> displace_samples Row solve thr (Fin 0) g gl xi zeta = Ok (xi, zeta).
Proof.
  intros Hi Hr. apply not_finite_undisplaced. left. pose proof (lam0_not_finite thr row Hr) as H.
  destruct row as [|a row]; [contradiction|].
  exists (normalize_row thr (Fin 0) (a :: row)).
  unfold normalize_row in *. simpl in *. eexists. split; [apply (in_map (normalize_row thr (Fin 0))) in Hi; exact Hi|].
  split; [left; reflexivity|]. inversion H; subst. assumption.
Qed.

(* otherwise, every data point and each of its samples moves by the same displacement *)
Lemma traverse_Forall2 {A B} (f : A -> Result B) l l' :
  traverse f l = Ok l' <-> Forall2 (fun a b => f a = Ok b) l l'.
Proof.
  revert l'. induction l as [|a l IH]; intros l'; simpl.
  - split; intros H; [injection H as <-; constructor|inversion H; reflexivity].
  - split; intros H.
    + destruct (f a) as [b|e] eqn:E; [|discriminate]. simpl in H.
      destruct (traverse f l) as [bs|e]; [|discriminate]. simpl in H. injection H as <-.
      constructor; [assumption|]. apply IH. reflexivity.
    + inversion H; subst. rewrite H2. simpl. apply IH in H4. rewrite H4. reflexivity.
Qed.

Lemma traverse_total {A B} (f : A -> Result B) (g : A -> B) l :
  (forall a, f a = Ok (g a)) -> traverse f l = Ok (map g l).
Proof. intros H. induction l as [|a l IH]; simpl; [reflexivity|]. rewrite H; simpl. rewrite IH. reflexivity. Qed.

Lemma nth_error_combine_seq {A} (l : list A) s i x :
  nth_error l i = Some x -> nth_error (combine (seq s (length l)) l) i = Some ((s + i)%nat, x).
Proof.
  revert s i. induction l as [|a l IH]; intros s [|i] H; simpl in *; try discriminate.
  - injection H as ->. rewrite Nat.add_0_r. reflexivity.
  - rewrite (IH (S s) i H). do 2 f_equal. rewrite Nat.add_succ_r. reflexivity.
Qed.

Lemma nth_error_indexed {A} (l : list A) i x : nth_error l i = Some x -> nth_error (indexed l) i = Some (i, x).
Proof. apply (nth_error_combine_seq l 0 i x). Qed.

Lemma check_fin (t : list vec) : check_tensor_validity (map (map Fin) t) = false.
Proof.
  destruct (check_tensor_validity (map (map Fin) t)) eqn:E; [|reflexivity].
  apply check_iff in E. destruct E as [row [a [H1 [H2 H3]]]]. apply in_map_iff in H1. destruct H1 as [r [<- _]].
  apply in_map_iff in H2. destruct H2 as [b [<- _]]. discriminate.
Qed.

Lemma map_fin_val l : map fin_val (map Fin l) = l.
Proof. rewrite map_map. simpl. apply map_id. Qed.

(* the factor applied to a non-zero gradient *)
Definition clip_factor (thr lam : R) (g : vec) : R := Rmin thr (norm2 g) / norm2 g / lam.

Lemma normalize_rows thr lam G :
  lam <> 0 -> Forall (Exists (fun a => a <> 0)) G ->
  map (normalize_row thr (Fin lam)) (map (map Fin) G) = map (map Fin) (map (fun g => vscal (clip_factor thr lam g) g) G).
Proof.
  intros Hl HG. rewrite !map_map. apply map_ext_in. intros g Hg. rewrite Forall_forall in HG.
  pose proof (nonzero_norm g (HG g Hg)). apply normalize_row_fin; lra.
Qed.

Section Moved.
Variable Row : Type.
Variable solve : Row -> vec -> option vec -> Result Row.
Variable shift : Row -> vec -> Row.
Hypothesis solve_shift : forall r v o, solve r v o = Ok (shift r v).

Lemma displaced_rows thr lam G GL xi zeta :
  lam <> 0 -> Forall (Exists (fun a => a <> 0)) G -> Forall (Exists (fun a => a <> 0)) GL ->
  forall gl, gl = None \/ gl = Some (map (map Fin) GL) ->
  exists xi' zeta',
    displace_samples Row solve thr (Fin lam) (map (map Fin) G) gl xi zeta = Ok (xi', zeta') /\
    (forall i r, nth_error xi i = Some r ->
       nth_error xi' i = Some (shift r (vscal (clip_factor thr lam (nth i G [])) (nth i G [])))) /\
    (forall k row, nth_error zeta k = Some row -> exists row', nth_error zeta' k = Some row' /\
       forall i r, nth_error row i = Some r ->
         nth_error row' i = Some (shift r (vscal (clip_factor thr lam (nth i G [])) (nth i G [])))).
Proof.
  intros Hl HG HGL gl Hgl.
  set (d := get_optimal_displacement thr (Fin lam) (map (map Fin) G) gl).
  assert (Hf : fst d = map (map Fin) (map (fun g => vscal (clip_factor thr lam g) g) G)) by (apply normalize_rows; assumption).
  assert (Hv : invalid_displacement d = false).
  { unfold invalid_displacement. rewrite Hf, check_fin. simpl. destruct Hgl as [->| ->]; [reflexivity|]. simpl.
    rewrite (normalize_rows thr lam GL Hl HGL). apply check_fin. }
  assert (Hd : forall i, fst (disp_row d i) = vscal (clip_factor thr lam (nth i G [])) (nth i G [])).
  { intros i. change (fst (disp_row d i)) with (map fin_val (nth i (fst d) [])). rewrite Hf.
    change (@nil xr) with (map Fin (@nil R)). rewrite map_nth, map_fin_val.
    exact (map_nth (fun g : vec => vscal (clip_factor thr lam g) g) G [] i). }
  exists (map (fun p => shift (snd p) (fst (disp_row d (fst p)))) (indexed xi)),
         (map (fun row => map (fun p => shift (snd p) (fst (disp_row d (fst p)))) (indexed row)) zeta).
  split; [|split].
  - unfold displace_samples. fold d. rewrite Hv.
    assert (Hs : forall l, traverse (solve_at Row solve d) (indexed l) =
              Ok (map (fun p => shift (snd p) (fst (disp_row d (fst p)))) (indexed l))).
    { intros l. apply traverse_total. intros p. unfold solve_at. apply solve_shift. }
    rewrite Hs. simpl.
    rewrite (traverse_total _ (fun row => map (fun p => shift (snd p) (fst (disp_row d (fst p)))) (indexed row))); [reflexivity|].
    intros a. apply Hs.
  - intros i r Hr. rewrite (map_nth_error _ i (indexed xi) (nth_error_indexed xi i r Hr)). rewrite <- (Hd i). reflexivity.
  - intros k row Hk. eexists. split; [apply map_nth_error; exact Hk|].
    intros i r Hr. rewrite (map_nth_error _ i (indexed row) (nth_error_indexed row i r Hr)). rewrite <- (Hd i). reflexivity.
Qed.
End Moved.


Lemma nexp_22 : nexp_is_2 (PFin 2) && Reqb 2 2 = true.
Proof. simpl. assert (H : Reqb 2 2 = true) by (apply Reqb_true; reflexivity). rewrite H. reflexivity. Qed.

Lemma nc_displaced thr lam G gl GL (xi : list (vec * option vec)) zeta :
  lam <> 0 -> Forall (Exists (fun a => a <> 0)) G -> Forall (Exists (fun a => a <> 0)) GL ->
  gl = None \/ gl = Some (map (map Fin) GL) ->
  exists xi' zeta',
    displace_samples (vec * option vec) (fun r v o => nc_solve_max (PFin 2) 2 (fst r) (snd r) v o)
                     thr (Fin lam) (map (map Fin) G) gl xi zeta = Ok (xi', zeta') /\
    (forall i x y g, nth_error xi i = Some (x, y) -> nth_error G i = Some g ->
       nth_error xi' i = Some (vadd x (vscal (Rmin thr (norm2 g) / norm2 g / lam / 2) g), y)) /\
    (forall k row, nth_error zeta k = Some row -> exists row', nth_error zeta' k = Some row' /\
       forall i x y g, nth_error row i = Some (x, y) -> nth_error G i = Some g ->
       nth_error row' i = Some (vadd x (vscal (Rmin thr (norm2 g) / norm2 g / lam / 2) g), y)).
Proof.
  intros Hl HG HGL Hgl.
  destruct (displaced_rows (vec * option vec) (fun r v o => nc_solve_max (PFin 2) 2 (fst r) (snd r) v o)
              (fun r v => (vadd (fst r) (vscal (/ 2) v), snd r))
              ltac:(intros r v o; unfold nc_solve_max; rewrite nexp_22; reflexivity)
              thr lam G GL xi zeta Hl HG HGL gl Hgl) as [xi' [zeta' [H1 [H2 H3]]]].
  exists xi', zeta'. split; [exact H1|].
  assert (E : forall (x : vec) (y : option vec) g i, nth_error G i = Some g ->
     ((fun r v => (vadd (fst r) (vscal (/ 2) v), snd r)) (x, y)
        (vscal (clip_factor thr lam (nth i G [])) (nth i G [])))
     = (vadd x (vscal (Rmin thr (norm2 g) / norm2 g / lam / 2) g), y)).
  { intros x y g i Hg. rewrite (nth_error_nth G i [] Hg). simpl. f_equal. f_equal. unfold clip_factor, vscal. rewrite map_map.
    apply map_ext. intros a. unfold Rdiv. ring. }
  split.
  - intros i x y g Hx Hg. rewrite (H2 i (x, y) Hx). f_equal. apply (E x y g i Hg).
  - intros k row Hk. destruct (H3 k row Hk) as [row' [Hr' Hall]]. exists row'. split; [exact Hr'|].
    intros i x y g Hx Hg. rewrite (Hall i (x, y) Hx). f_equal. apply (E x y g i Hg).
Qed.
