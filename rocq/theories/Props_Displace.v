(* Property C13: displacements used by importance sampling. *)
From Coq Require Import Reals List Lra.
From Verif Require Import PyBase RList XReal Costs_Model Displace_Model Displace_Proofs.
Import ListNotations.
Local Open Scope R_scope.

(* C13. For a non-zero finite gradient and lambda > 0 the displacement is a positive multiple of the gradient, of norm
   min(threshold, norm of the gradient)/lambda. *)
Theorem C13_clipped :
  forall thr lam g,
    0 < thr -> 0 < lam -> Exists (fun a => a <> 0) g ->
    exists t d, 0 < t /\ d = map (Rmult t) g /\
                normalize_row thr (Fin lam) (map Fin g) = map Fin d /\
                norm2 d = Rmin thr (norm2 g) / lam.
Proof. exact displacement_shape. Qed.
Print Assumptions C13_clipped.

(* With a negative multiplier the displacement has the opposite direction. *)
Theorem C13_negative_multiplier :
  forall thr lam g,
    0 < thr -> lam < 0 -> Exists (fun a => a <> 0) g ->
    exists t d, t < 0 /\ d = map (Rmult t) g /\
                normalize_row thr (Fin lam) (map Fin g) = map Fin d /\
                norm2 d = Rmin thr (norm2 g) / - lam.
Proof. exact displacement_neg. Qed.
Print Assumptions C13_negative_multiplier.

Example C13_clipped_case :
  0 < threshold_default /\ 0 < 2 /\ Exists (fun a => a <> 0) [0; 3; 4].
Proof. unfold threshold_default. repeat split; try lra. right. left. lra. Qed.

(* As soon as one entry of the data or label displacement is not finite, all points and samples are left in place. *)
Theorem C13_not_finite_undisplaced :
  forall Row (solve : Row -> vec -> option vec -> Result Row) thr lam g gl xi zeta,
    (exists row a, In row (map (normalize_row thr lam) g) /\ In a row /\ isfinite a = false) \/
    (exists l, gl = Some l /\
       exists row a, In row (map (normalize_row thr lam) l) /\ In a row /\ isfinite a = false) ->
    displace_samples Row solve thr lam g gl xi zeta = Ok (xi, zeta).
Proof. exact not_finite_undisplaced. Qed.
Print Assumptions C13_not_finite_undisplaced.

(* In particular one sample with a zero gradient switches the displacement off for the whole batch... *)
Theorem C13_zero_gradient :
  forall Row (solve : Row -> vec -> option vec -> Result Row) thr lam g gl xi zeta z,
    In (map Fin z) g -> z <> [] -> Forall (fun a => a = 0) z ->
    displace_samples Row solve thr lam g gl xi zeta = Ok (xi, zeta).
Proof. exact zero_gradient_disables. Qed.
Print Assumptions C13_zero_gradient.

(* ... and so does lambda = 0. *)
Theorem C13_zero_multiplier :
  forall Row (solve : Row -> vec -> option vec -> Result Row) thr g gl xi zeta row,
    In row g -> row <> [] -> displace_samples Row solve thr (Fin 0) g gl xi zeta = Ok (xi, zeta).
Proof. exact lambda_zero_disables. Qed.
Print Assumptions C13_zero_multiplier.

Example C13_zero_gradient_case :
  In (map Fin [0; 0]) [[Fin 1; Fin 2]; [Fin 0; Fin 0]] /\ [0; 0] <> [] /\ Forall (fun a => a = 0) [0; 0].
Proof. split; [right; left; reflexivity|]. split; [discriminate|]. repeat constructor. Qed.

(* When all gradients are non-zero, under the 2-2 cost each point and each of its samples moves by half of that
   point's displacement; labels stay. *)
Theorem C13_moved :
  forall thr lam G gl GL (xi : list (vec * option vec)) zeta,
    lam <> 0 -> Forall (Exists (fun a => a <> 0)) G -> Forall (Exists (fun a => a <> 0)) GL ->
    gl = None \/ gl = Some (map (map Fin) GL) ->
    exists xi' zeta',
      displace_samples (vec * option vec) (fun r v o => nc_solve_max (PFin 2) 2 (fst r) (snd r) v o)
                       thr (Fin lam) (map (map Fin) G) gl xi zeta = Ok (xi', zeta') /\
      (forall i x y g, nth_error xi i = Some (x, y) -> nth_error G i = Some g ->
         nth_error xi' i = Some (vadd x (vscal (Rmin thr (norm2 g) / norm2 g / lam / 2) g), y)) /\
      (forall k row, nth_error zeta k = Some row -> exists row', nth_error zeta' k = Some row' /\
         forall i x y g, nth_error row i = Some (x, y) -> nth_error G i = Some g ->
         nth_error row' i = Some (vadd x (vscal (Rmin thr (norm2 g) / norm2 g / lam / 2) g), y)).
Proof. exact nc_displaced. Qed.
Print Assumptions C13_moved.

Example C13_moved_case : 2 <> 0 /\ Forall (Exists (fun a => a <> 0)) [[0; 1]; [2; 0]] /\
  (Some (map (map Fin) [[1]; [3]]) = None \/ Some (map (map Fin) [[1]; [3]]) = Some (map (map Fin) [[1]; [3]])).
Proof.
  split; [lra|]. split; [|right; reflexivity]. constructor; [right; left; lra|]. constructor; [left; lra|constructor].
Qed.

(* The default threshold does not touch gradients of norm up to 1e10: these move by gradient / lambda. *)
Theorem C13_default_threshold :
  forall lam g,
    lam <> 0 -> Exists (fun a => a <> 0) g -> norm2 g <= 10 ^ 10 ->
    normalize_row threshold_default (Fin lam) (map Fin g) = map Fin (map (Rmult (/ lam)) g).
Proof.
  intros lam g Hl Hg Hn. pose proof (nonzero_norm g Hg) as Hp. rewrite normalize_row_fin by lra.
  assert (E : Rmin threshold_default (norm2 g) = norm2 g) by (apply Rmin_right; unfold threshold_default; lra).
  rewrite E. unfold vscal. rewrite !map_map. apply map_ext. intros a. f_equal. field. split; lra.
Qed.
Print Assumptions C13_default_threshold.

Example C13_default_threshold_case : 2 <> 0 /\ Exists (fun a => a <> 0) [0; 3; 4] /\ norm2 [0; 3; 4] <= 10 ^ 10.
Proof.
  split; [lra|]. split; [right; left; lra|]. unfold norm2, sqnorm, dot. simpl.
  replace (0 * 0 + (3 * 3 + (4 * 4 + 0))) with (5 * 5) by ring. rewrite sqrt_square; lra.
Qed.

(* With a cost on the labels (kappa finite and not 0), each label also moves, by half of its own row of the label
   displacement divided by kappa. *)
Theorem C13_moved_labels :
  forall thr lam k G GL (xi : list (vec * vec)) zeta,
    lam <> 0 -> k <> 0 -> Forall (Exists (fun a => a <> 0)) G -> Forall (Exists (fun a => a <> 0)) GL ->
    exists xi' zeta',
      displace_samples (vec * vec)
        (fun r v o => do (x, y) <- nlc_solve_max (PFin 2) 2 (KFin k) (fst r) (Some (snd r)) v o;
                      match y with Some l => Ok (x, map fin_val l) | None => Raise TypeError end)
        thr (Fin lam) (map (map Fin) G) (Some (map (map Fin) GL)) xi zeta = Ok (xi', zeta') /\
      (forall i x y g h, nth_error xi i = Some (x, y) -> nth_error G i = Some g -> nth_error GL i = Some h ->
         nth_error xi' i = Some (vadd x (vscal (Rmin thr (norm2 g) / norm2 g / lam / 2) g),
                                 vadd y (vscal (Rmin thr (norm2 h) / norm2 h / lam / 2 / k) h))) /\
      (forall s row, nth_error zeta s = Some row -> exists row', nth_error zeta' s = Some row' /\
         forall i x y g h, nth_error row i = Some (x, y) -> nth_error G i = Some g -> nth_error GL i = Some h ->
         nth_error row' i = Some (vadd x (vscal (Rmin thr (norm2 g) / norm2 g / lam / 2) g),
                                  vadd y (vscal (Rmin thr (norm2 h) / norm2 h / lam / 2 / k) h))).
Proof.
  intros thr lam k G GL xi zeta Hl Hk HG HGL.
  set (solve := fun (r : vec * vec) v o => do (x, y) <- nlc_solve_max (PFin 2) 2 (KFin k) (fst r) (Some (snd r)) v o;
                      match y with Some l => Ok (x, map fin_val l) | None => Raise TypeError end).
  set (mv := fun (i : nat) (r : vec * vec) =>
    (vadd (fst r) (vscal (/ 2) (vscal (clip_factor thr lam (nth i G [])) (nth i G []))),
     vadd (snd r) (vscal (/ 2 / k) (vscal (clip_factor thr lam (nth i GL [])) (nth i GL []))))).
  set (d := get_optimal_displacement thr (Fin lam) (map (map Fin) G) (Some (map (map Fin) GL))).
  assert (Hf : d = (map (map Fin) (map (fun g => vscal (clip_factor thr lam g) g) G),
                    Some (map (map Fin) (map (fun g => vscal (clip_factor thr lam g) g) GL)))).
  { unfold d, get_optimal_displacement. cbn [option_map]. rewrite !normalize_rows by assumption. reflexivity. }
  assert (N : forall i (K : list vec), map fin_val (nth i (map (map Fin) (map (fun g => vscal (clip_factor thr lam g) g) K)) [])
              = vscal (clip_factor thr lam (nth i K [])) (nth i K [])).
  { intros i K. change (@nil xr) with (map Fin (@nil R)). rewrite map_nth, map_fin_val.
    exact (map_nth (fun g : vec => vscal (clip_factor thr lam g) g) K [] i). }
  assert (Ls : forall y v, map fin_val (map2 (label_shift (KFin k)) y v) = vadd y (vscal (/ 2 / k) v)).
  { clear - Hk. unfold vadd, vscal. induction y as [|b y IH]; intros [|c v]; try reflexivity. cbn [map map2]. rewrite IH. f_equal.
    unfold label_shift, xadd, xdiv. destruct (Reqb k 0) eqn:E; [apply Reqb_true in E; contradiction|]. cbn [fin_val]. field. exact Hk. }
  assert (Hs : forall l, traverse (solve_at (vec * vec) solve d) (indexed l) = Ok (map (fun p => mv (fst p) (snd p)) (indexed l))).
  { intros l. apply traverse_total. intros [i [x y]]. unfold solve_at, disp_row. rewrite Hf. cbn [fst snd option_map].
    rewrite !N. unfold solve, nlc_solve_max. rewrite nexp_22. cbn [bind fst snd]. unfold mv. cbn [fst snd].
    rewrite Ls. reflexivity. }
  assert (Hv : invalid_displacement d = false).
  { unfold invalid_displacement. rewrite Hf. cbn [fst snd]. rewrite !check_fin. reflexivity. }
  assert (Em : forall i x y g h, nth_error G i = Some g -> nth_error GL i = Some h ->
     mv i (x, y) = (vadd x (vscal (Rmin thr (norm2 g) / norm2 g / lam / 2) g), vadd y (vscal (Rmin thr (norm2 h) / norm2 h / lam / 2 / k) h))).
  { intros i x y g h Hg Hh. unfold mv. rewrite (nth_error_nth G i [] Hg), (nth_error_nth GL i [] Hh). cbn [fst snd].
    f_equal; f_equal; unfold clip_factor, vscal; rewrite map_map; apply map_ext; intros a; unfold Rdiv; ring. }
  exists (map (fun p => mv (fst p) (snd p)) (indexed xi)), (map (fun row => map (fun p => mv (fst p) (snd p)) (indexed row)) zeta).
  split; [|split].
  - unfold displace_samples. fold d. rewrite Hv, Hs. cbn [bind].
    rewrite (traverse_total _ (fun row => map (fun p => mv (fst p) (snd p)) (indexed row))); [reflexivity|]. intros a. apply Hs.
  - intros i x y g h Hx Hg Hh. rewrite (map_nth_error _ i (indexed xi) (nth_error_indexed xi i (x, y) Hx)). cbn [fst snd].
    f_equal. apply Em; assumption.
  - intros s row Hr. eexists. split; [apply map_nth_error; exact Hr|].
    intros i x y g h Hx Hg Hh. rewrite (map_nth_error _ i (indexed row) (nth_error_indexed row i (x, y) Hx)). cbn [fst snd].
    f_equal. apply Em; assumption.
Qed.
Print Assumptions C13_moved_labels.

Example C13_moved_labels_case : 2 <> 0 /\ 10 <> 0 /\ Forall (Exists (fun a => a <> 0)) [[0; 1]; [2; 0]] /\ Forall (Exists (fun a => a <> 0)) [[1]; [-3]].
Proof.
  split; [lra|]. split; [lra|]. split.
  - constructor; [right; left; lra|]. constructor; [left; lra|constructor].
  - constructor; [left; lra|]. constructor; [left; lra|constructor].
Qed.

(* ---------- concrete cases of the theorems above, one each ---------- *)
Lemma norm_034 : norm2 [0; 3; 4] = 5.
Proof. unfold norm2, sqnorm, dot. simpl. replace (0 * 0 + (3 * 3 + (4 * 4 + 0))) with (5 * 5) by ring. apply sqrt_square. lra. Qed.
Example C13_clipped_applied : exists t d, 0 < t /\ d = map (Rmult t) [0; 3; 4] /\ normalize_row 4 (Fin 2) (map Fin [0; 3; 4]) = map Fin d /\ norm2 d = 2.
Proof.
  destruct (C13_clipped 4 2 [0; 3; 4]) as (t & d & A & B & C & D); try lra; [right; left; lra|]. exists t, d. repeat split; try assumption.
  rewrite D, norm_034, Rmin_left by lra. lra.
Qed.
Example C13_negative_multiplier_case : exists t d, t < 0 /\ d = map (Rmult t) [0; 3; 4] /\ normalize_row 10 (Fin (-1)) (map Fin [0; 3; 4]) = map Fin d /\ norm2 d = 5.
Proof.
  destruct (C13_negative_multiplier 10 (-1) [0; 3; 4]) as (t & d & A & B & C & D); try lra; [right; left; lra|]. exists t, d. repeat split; try assumption.
  rewrite D, norm_034, Rmin_right by lra. field.
Qed.
Example C13_not_finite_undisplaced_case : displace_samples (vec * option vec) (fun r v o => nc_solve_max (PFin 2) 2 (fst r) (snd r) v o)
  1 (Fin 2) [[PInf; Fin 1]; [Fin 1; Fin 1]] None [([0; 0], None); ([1; 1], None)] [[([2; 2], None); ([3; 3], None)]]
  = Ok ([([0; 0], None); ([1; 1], None)], [[([2; 2], None); ([3; 3], None)]]).
Proof.
  apply C13_not_finite_undisplaced. left. eexists _, _. split; [left; reflexivity|]. split; [left; reflexivity|]. vm_compute. reflexivity.
Qed.
Example C13_zero_gradient_applied : displace_samples (vec * option vec) (fun r v o => nc_solve_max (PFin 2) 2 (fst r) (snd r) v o)
  1 (Fin 2) [[Fin 1; Fin 2]; [Fin 0; Fin 0]] None [([0; 0], None); ([1; 1], None)] [[([2; 2], None); ([3; 3], None)]]
  = Ok ([([0; 0], None); ([1; 1], None)], [[([2; 2], None); ([3; 3], None)]]).
Proof. refine (C13_zero_gradient _ _ _ _ _ _ _ _ [0; 0] _ _ _); [right; left; reflexivity|discriminate|repeat constructor]. Qed.
Example C13_zero_multiplier_case : displace_samples (vec * option vec) (fun r v o => nc_solve_max (PFin 2) 2 (fst r) (snd r) v o)
  1 (Fin 0) [[Fin 1; Fin 2]] None [([0; 0], None)] [[([2; 2], None)]] = Ok ([([0; 0], None)], [[([2; 2], None)]]).
Proof. refine (C13_zero_multiplier _ _ _ _ _ _ _ [Fin 1; Fin 2] _ _); [left; reflexivity|discriminate]. Qed.
(* gradient (0, 4) with threshold 2 and multiplier 1/2: the displacement is (0, 4) and points move by half of it *)
Example C13_moved_applied : exists xi' zeta',
  displace_samples (vec * option vec) (fun r v o => nc_solve_max (PFin 2) 2 (fst r) (snd r) v o) 2 (Fin (1 / 2)) (map (map Fin) [[0; 4]]) None
    [([1; 1], None)] [[([7; 7], None)]] = Ok (xi', zeta') /\
  nth_error xi' 0 = Some ([1; 3], None) /\ exists row, nth_error zeta' 0 = Some row /\ nth_error row 0 = Some ([7; 9], None).
Proof.
  destruct (C13_moved 2 (1 / 2) [[0; 4]] None [] [([1; 1], None)] [[([7; 7], None)]]) as (xi' & zeta' & A & B & C); try lra.
  { constructor; [right; left; lra|constructor]. } { constructor. } { left. reflexivity. }
  assert (N : norm2 [0; 4] = 4). { unfold norm2, sqnorm, dot. simpl. replace (0 * 0 + (4 * 4 + 0)) with (4 * 4) by ring. apply sqrt_square. lra. }
  exists xi', zeta'. split; [exact A|]. split.
  - rewrite (B 0%nat [1; 1] None [0; 4] eq_refl eq_refl), N, Rmin_left by lra. unfold vadd, vscal. simpl. repeat f_equal; field.
  - destruct (C 0%nat _ eq_refl) as (row & R1 & R2). exists row. split; [exact R1|]. rewrite (R2 0%nat [7; 7] None [0; 4] eq_refl eq_refl), N, Rmin_left by lra.
    unfold vadd, vscal. simpl. repeat f_equal; field.
Qed.
Example C13_default_threshold_applied : normalize_row threshold_default (Fin 2) (map Fin [0; 3; 4]) = map Fin [/ 2 * 0; / 2 * 3; / 2 * 4].
Proof. apply (C13_default_threshold 2 [0; 3; 4]); [lra|right; left; lra|rewrite norm_034; lra]. Qed.
