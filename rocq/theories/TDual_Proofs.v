(* Proofs about the tensor-level robust loss: broadcasting on grids, and the reduction to rows. *)
From Coq Require Import Reals List Lra Lia Arith Bool String.
From Verif Require Import PyBase RList XReal Tensor Loss_Model Loss_Spec Loss_Proofs Costs_Model Displace_Model ImpSamp_Model Dual_Model Dual_Spec Dual_Proofs LogMeanExp TDual_Model TDual_Spec.
Import ListNotations.
Local Notation length := List.length.
Local Open Scope R_scope.
Local Open Scope nat_scope.

(* ---------- slices ---------- *)
Lemma skipn_skipn {A} (l : list A) : forall a b, skipn a (skipn b l) = skipn (b + a) l.
Proof. induction l as [|x l IH]; intros a b; [rewrite !skipn_nil; reflexivity|]. destruct b; simpl; [reflexivity|]. apply IH. Qed.
Lemma slice_S i k l : slice (S i) k l = slice i k (skipn k l).
Proof. unfold slice. rewrite skipn_skipn. reflexivity. Qed.

Lemma slices_chunks n k l : map (fun i => slice i k l) (seq 0 n) = chunks n k l.
Proof.
  revert l. induction n as [|n IH]; intros l; [reflexivity|]. cbn [seq map chunks]. f_equal.
  rewrite <- seq_shift, map_map, <- IH. apply map_ext. intros i. apply slice_S.
Qed.

Lemma flat_slices {A} (f : list R -> list R -> list A) n k l a b :
  flat_map (fun i => f (slice i k a) (slice i l b)) (seq 0 n) = List.concat (map2 f (chunks n k a) (chunks n l b)).
Proof.
  rewrite <- !slices_chunks, map2_map_l, map2_map_r, map2_same, flat_map_concat_map. reflexivity.
Qed.

Lemma flat_slices_r {A} (f : list R -> list A) n k b :
  flat_map (fun i => f (slice i k b)) (seq 0 n) = List.concat (map f (chunks n k b)).
Proof. rewrite <- slices_chunks, map_map, flat_map_concat_map. reflexivity. Qed.

Lemma chunks_total n k l : length l = n * k -> List.concat (chunks n k l) = l.
Proof.
  revert l. induction n as [|n IH]; intros l H; simpl in *; [apply length_zero_iff_nil in H; subst; reflexivity|].
  rewrite IH by (rewrite skipn_length; lia). apply firstn_skipn.
Qed.

Lemma chunks_len n k l : length (chunks n k l) = n.
Proof. revert l. induction n; intros; simpl; auto. Qed.

Lemma chunks_widths n k l : length l = n * k -> widths k (chunks n k l).
Proof.
  revert l. induction n as [|n IH]; intros l H; simpl in *; constructor.
  - rewrite firstn_length. lia.
  - apply IH. rewrite skipn_length. lia.
Qed.

Lemma map2_app {A B C} (f : A -> B -> C) a b a' b' : length a = length b -> map2 f (a ++ a') (b ++ b') = map2 f a b ++ map2 f a' b'.
Proof. revert b. induction a as [|x a IH]; intros [|y b] H; simpl in *; try discriminate; auto. rewrite IH by lia. reflexivity. Qed.

Lemma map2_concat {A B C} (f : A -> B -> C) : forall a b, Forall2 (fun x y => length x = length y) a b ->
  map2 f (List.concat a) (List.concat b) = List.concat (map2 (map2 f) a b).
Proof. induction 1 as [|x y a b H _ IH]; simpl; [reflexivity|]. rewrite map2_app by exact H. rewrite IH. reflexivity. Qed.

Lemma widths_Forall2 k a b : widths k a -> widths k b -> length a = length b -> Forall2 (fun x y : list R => length x = length y) a b.
Proof.
  intros Wa. revert b. induction Wa as [|x a H Wa IH]; intros [|y b] Wb L; simpl in L; try discriminate; constructor.
  - inversion Wb; subst. congruence.
  - inversion Wb; subst. apply IH; [assumption|lia].
Qed.

Lemma bdata_same op : forall s a b, length a = prodl s -> length b = prodl s -> bdata op s s a b = map2 op a b.
Proof.
  induction s as [|p s IH]; intros a b Ha Hb.
  - simpl in *. destruct a as [|x [|? ?]]; destruct b as [|y [|? ?]]; try discriminate. reflexivity.
  - cbn [bdata]. cbn [prodl] in Ha, Hb.
    assert (E : flat_map (fun i => bdata op s s (slice (if p =? 1 then 0 else i) (prodl s) a) (slice (if p =? 1 then 0 else i) (prodl s) b))
                         (seq 0 (if p =? 1 then p else p))
              = flat_map (fun i => map2 op (slice i (prodl s) a) (slice i (prodl s) b)) (seq 0 p)).
    { replace (if p =? 1 then p else p) with p by (destruct (p =? 1); reflexivity).
      rewrite !flat_map_concat_map. f_equal. apply map_ext_in. intros i Hi. apply in_seq in Hi.
      replace (if p =? 1 then 0 else i) with i by (destruct (p =? 1) eqn:P; [apply Nat.eqb_eq in P; lia|reflexivity]).
      apply IH; unfold slice; rewrite firstn_length, skipn_length; nia. }
    rewrite E, flat_slices. rewrite <- map2_concat.
    + rewrite !chunks_total by assumption. reflexivity.
    + apply (widths_Forall2 (prodl s)); try (apply chunks_widths; assumption). rewrite !chunks_len. reflexivity.
Qed.

Lemma slice_0 k l : length l = k -> slice 0 k l = l.
Proof. intros <-. unfold slice. simpl. apply firstn_all. Qed.

Lemma bdata_lead op n s a b : length a = prodl s -> length b = n * prodl s ->
  bdata op (1 :: s) (n :: s) a b = List.concat (map (map2 op a) (chunks n (prodl s) b)).
Proof.
  intros Ha Hb. cbn [bdata]. simpl (1 =? 1). cbv iota. rewrite slice_0 by exact Ha. rewrite <- flat_slices_r, !flat_map_concat_map.
  f_equal. apply map_ext_in. intros i Hi. apply in_seq in Hi.
  replace (if n =? 1 then 0 else i) with i by (destruct (n =? 1) eqn:P; [apply Nat.eqb_eq in P; lia|reflexivity]).
  apply bdata_same; [exact Ha|]. unfold slice. rewrite firstn_length, skipn_length. nia.
Qed.

Lemma bdata_trail op n s a b : length a = n * prodl s -> length b = prodl s ->
  bdata op (n :: s) (1 :: s) a b = List.concat (map (fun x => map2 op x b) (chunks n (prodl s) a)).
Proof.
  intros Ha Hb. cbn [bdata]. simpl (1 =? 1). cbv iota. rewrite slice_0 by exact Hb.
  rewrite <- (flat_slices_r (fun x => map2 op x b)), !flat_map_concat_map.
  assert (En : (if n =? 1 then 1 else n) = n) by (destruct (n =? 1) eqn:P; [apply Nat.eqb_eq in P; congruence|reflexivity]). rewrite En.
  f_equal. apply map_ext_in. intros i Hi. apply in_seq in Hi.
  replace (if n =? 1 then 0 else i) with i by (destruct (n =? 1) eqn:P; [apply Nat.eqb_eq in P; lia|reflexivity]).
  apply bdata_same; [|exact Hb]. unfold slice. rewrite firstn_length, skipn_length. nia.
Qed.

Lemma bshape_same s : bshape s s = Some s.
Proof. induction s as [|p s IH]; simpl; [reflexivity|]. rewrite IH, Nat.eqb_refl. reflexivity. Qed.
Lemma bshape_lead n s : bshape (1 :: s) (n :: s) = Some (n :: s).
Proof. cbn [bshape]. rewrite bshape_same. destruct (1 =? n) eqn:E; [apply Nat.eqb_eq in E; subst; reflexivity|reflexivity]. Qed.
Lemma bshape_trail n s : bshape (n :: s) (1 :: s) = Some (n :: s).
Proof. cbn [bshape]. rewrite bshape_same. destruct (n =? 1) eqn:E; [apply Nat.eqb_eq in E; subst; reflexivity|]. reflexivity. Qed.

Lemma pad_same s : pad (length s) s = s.
Proof. unfold pad. rewrite Nat.sub_diag. reflexivity. Qed.

Lemma bcast_same op s a b : length a = prodl s -> length b = prodl s -> bcast op (mkT s a) (mkT s b) = Ok (mkT s (map2 op a b)).
Proof.
  intros Ha Hb. unfold bcast, tdim. cbn [shp dat]. rewrite Nat.max_id, pad_same, bshape_same, bdata_same by assumption. reflexivity.
Qed.
Lemma bcast_lead op n s a b : length a = prodl s -> length b = n * prodl s ->
  bcast op (mkT (1 :: s) a) (mkT (n :: s) b) = Ok (mkT (n :: s) (List.concat (map (map2 op a) (chunks n (prodl s) b)))).
Proof.
  intros Ha Hb. unfold bcast, tdim. cbn [shp dat length]. rewrite Nat.max_id.
  change (pad (S (length s)) (1 :: s)) with (pad (length (1 :: s)) (1 :: s)). change (pad (S (length s)) (n :: s)) with (pad (length (n :: s)) (n :: s)).
  rewrite !pad_same, bshape_lead, bdata_lead by assumption. reflexivity.
Qed.
Lemma bcast_trail op n s a b : length a = n * prodl s -> length b = prodl s ->
  bcast op (mkT (n :: s) a) (mkT (1 :: s) b) = Ok (mkT (n :: s) (List.concat (map (fun x => map2 op x b) (chunks n (prodl s) a)))).
Proof.
  intros Ha Hb. unfold bcast, tdim. cbn [shp dat length]. rewrite Nat.max_id.
  change (pad (S (length s)) (1 :: s)) with (pad (length (1 :: s)) (1 :: s)). change (pad (S (length s)) (n :: s)) with (pad (length (n :: s)) (n :: s)).
  rewrite !pad_same, bshape_trail, bdata_trail by assumption. reflexivity.
Qed.
Lemma pad_one s : pad (S (length s)) s = 1 :: s.
Proof. unfold pad. replace (S (length s) - length s) with 1 by lia. reflexivity. Qed.
Lemma bcast_pad_l op n s a b : length a = prodl s -> length b = n * prodl s ->
  bcast op (mkT s a) (mkT (n :: s) b) = bcast op (mkT (1 :: s) a) (mkT (n :: s) b).
Proof.
  intros Ha Hb. unfold bcast, tdim. cbn [shp dat length]. rewrite Nat.max_id. replace (Nat.max (length s) (S (length s))) with (S (length s)) by lia.
  rewrite pad_one. change (pad (S (length s)) (1 :: s)) with (pad (length (1 :: s)) (1 :: s)). rewrite pad_same. reflexivity.
Qed.
Lemma bcast_pad_r op n s a b : length a = n * prodl s -> length b = prodl s ->
  bcast op (mkT (n :: s) a) (mkT s b) = bcast op (mkT (n :: s) a) (mkT (1 :: s) b).
Proof.
  intros Ha Hb. unfold bcast, tdim. cbn [shp dat length]. rewrite Nat.max_id. replace (Nat.max (S (length s)) (length s)) with (S (length s)) by lia.
  rewrite pad_one. change (pad (S (length s)) (1 :: s)) with (pad (length (1 :: s)) (1 :: s)). rewrite pad_same. reflexivity.
Qed.

(* ---------- grids ---------- *)
Lemma grid_flat_length n m k zs : is_grid n m k zs -> length (List.concat zs) = n * m.
Proof.
  intros [<- F]. induction F as [|z zs [L _] _ IH]; simpl; [reflexivity|]. rewrite app_length, IH. unfold vec in *. lia.
Qed.
Lemma grid_widths n m k zs : is_grid n m k zs -> widths k (List.concat zs).
Proof.
  intros [_ F]. induction F as [|z zs [_ W] _ IH]; simpl; [constructor|]. apply Forall_app. split; assumption.
Qed.
Lemma grid_blocks n m k zs : is_grid n m k zs -> chunks n (m * k) (List.concat (List.concat zs)) = map (@List.concat R) zs.
Proof.
  intros [<- F]. assert (E : List.concat (List.concat zs) = List.concat (map (@List.concat R) zs)).
  { clear F. induction zs as [|z zs IH]; simpl; [reflexivity|]. rewrite concat_app, IH. reflexivity. }
  rewrite E. replace (length zs) with (length (map (@List.concat R) zs)) by apply map_length. apply chunks_concat.
  apply Forall_map. eapply Forall_impl; [|exact F]. intros z [L W]. rewrite (concat_length k z W). congruence.
Qed.
Lemma grid_data_length n m k zs : is_grid n m k zs -> length (List.concat (List.concat zs)) = n * (m * k).
Proof. intros G. pose proof (grid_flat_length n m k zs G) as L. rewrite (concat_length k) by (eapply grid_widths; eauto). unfold vec in *. rewrite L. lia. Qed.

Lemma concat_concat {A} (l : list (list (list A))) : List.concat (List.concat l) = List.concat (map (@List.concat A) l).
Proof. induction l as [|z l IH]; simpl; [reflexivity|]. rewrite concat_app, IH. reflexivity. Qed.

Lemma bc_lead op n m k xs zs : length xs = m -> widths k xs -> is_grid n m k zs ->
  bcast op (batch [1; m] k xs) (grid n m k zs) = Ok (grid n m k (map (map2 (map2 op) xs) zs)).
Proof.
  intros Lx Wx G. unfold batch, grid. cbn [app]. unfold batch. cbn [app].
  assert (P : prodl [m; k] = m * k) by (simpl; lia).
  rewrite bcast_lead; rewrite ?P.
  - rewrite (grid_blocks n m k zs G). do 2 f_equal. unfold vec in *. rewrite concat_concat, !map_map. f_equal. apply map_ext_in. intros z Hz.
    destruct G as [_ F]. rewrite Forall_forall in F. destruct (F z Hz) as [Lz Wz]. apply map2_concat. apply (widths_Forall2 k); auto. congruence.
  - rewrite (concat_length k xs Wx). congruence.
  - apply grid_data_length. exact G.
Qed.
Lemma bc_trail op n m k xs zs : length xs = m -> widths k xs -> is_grid n m k zs ->
  bcast op (grid n m k zs) (batch [1; m] k xs) = Ok (grid n m k (map (fun z => map2 (map2 op) z xs) zs)).
Proof.
  intros Lx Wx G. unfold batch, grid. cbn [app]. unfold batch. cbn [app].
  assert (P : prodl [m; k] = m * k) by (simpl; lia).
  rewrite bcast_trail; rewrite ?P.
  - rewrite (grid_blocks n m k zs G). do 2 f_equal. unfold vec in *. rewrite concat_concat, !map_map. f_equal. apply map_ext_in. intros z Hz.
    destruct G as [_ F]. rewrite Forall_forall in F. destruct (F z Hz) as [Lz Wz]. apply map2_concat. apply (widths_Forall2 k); auto. congruence.
  - apply grid_data_length. exact G.
  - rewrite (concat_length k xs Wx). congruence.
Qed.
Lemma bc_flat_l op n m k xs zs : length xs = m -> widths k xs -> is_grid n m k zs ->
  bcast op (batch [m] k xs) (grid n m k zs) = Ok (grid n m k (map (map2 (map2 op) xs) zs)).
Proof.
  intros Lx Wx G. rewrite <- (bc_lead op n m k xs zs Lx Wx G). unfold batch, grid, batch. cbn [app].
  apply bcast_pad_l; replace (prodl [m; k]) with (m * k) by (simpl; lia); [rewrite (concat_length k xs Wx); congruence|apply grid_data_length; exact G].
Qed.
Lemma bc_flat_r op n m k xs zs : length xs = m -> widths k xs -> is_grid n m k zs ->
  bcast op (grid n m k zs) (batch [m] k xs) = Ok (grid n m k (map (fun z => map2 (map2 op) z xs) zs)).
Proof.
  intros Lx Wx G. rewrite <- (bc_trail op n m k xs zs Lx Wx G). unfold batch, grid, batch. cbn [app].
  apply bcast_pad_r; replace (prodl [m; k]) with (m * k) by (simpl; lia); [apply grid_data_length; exact G|rewrite (concat_length k xs Wx); congruence].
Qed.

Lemma grids_Forall2 n m k k' a b : is_grid n m k a -> is_grid n m k' b -> Forall2 (fun x y : list (list R) => length x = length y) a b.
Proof.
  intros [La Fa] [Lb Fb]. assert (L : length a = length b) by congruence. clear La Lb. revert b L Fb.
  induction Fa as [|x a [H _] _ IH]; intros [|y b] L Fb; simpl in L; try discriminate; constructor.
  - inversion Fb as [|? ? [H' _] ?]; subst. congruence.
  - inversion Fb; subst. apply IH; [lia|assumption].
Qed.
Lemma bc_grid op n m k a b : is_grid n m k a -> is_grid n m k b ->
  bcast op (grid n m k a) (grid n m k b) = Ok (grid n m k (map2 (map2 (map2 op)) a b)).
Proof.
  intros Ga Gb. unfold grid, batch. cbn [app]. rewrite bcast_same.
  - do 2 f_equal. rewrite map2_concat.
    + f_equal. rewrite map2_concat; [reflexivity|]. eapply grids_Forall2; eauto.
    + apply (widths_Forall2 k); try (eapply grid_widths; eassumption). rewrite !(grid_flat_length n m k) by assumption. reflexivity.
  - rewrite (grid_data_length n m k a Ga). simpl. lia.
  - rewrite (grid_data_length n m k b Gb). simpl. lia.
Qed.

Lemma grid_map_rows n m k k' f zs : is_grid n m k zs -> (forall r, length r = k -> length (f r) = k') -> is_grid n m k' (map (map f) zs).
Proof.
  intros [L F] H. split; [rewrite map_length; exact L|]. apply Forall_map. eapply Forall_impl; [|exact F]. intros z [Lz W]. split.
  - rewrite map_length. exact Lz.
  - apply Forall_map. eapply Forall_impl; [|exact W]. intros r. apply H.
Qed.
Lemma map2_len_same {A B C} (f : A -> B -> C) l l' : length (map2 f l l') = Nat.min (length l) (length l').
Proof. revert l'. induction l as [|x l IH]; intros [|y l']; simpl; auto. Qed.
Lemma widths_map2_op op k xs z : widths k xs -> widths k z -> widths k (map2 (map2 op) xs z).
Proof.
  intros W. revert z. induction W as [|x xs H W IH]; intros [|y z] Wz; simpl; try (constructor; fail).
  inversion Wz; subst. constructor; [rewrite map2_len_same; lia|]. apply IH. assumption.
Qed.
Lemma grid_lead_ok op n m k xs zs : length xs = m -> widths k xs -> is_grid n m k zs -> is_grid n m k (map (map2 (map2 op) xs) zs).
Proof.
  intros Lx Wx [L F]. split; [rewrite map_length; exact L|]. apply Forall_map. eapply Forall_impl; [|exact F]. intros z [Lz W]. split.
  - rewrite map2_len_same. lia.
  - apply widths_map2_op; assumption.
Qed.
Lemma grid_trail_ok op n m k xs zs : length xs = m -> widths k xs -> is_grid n m k zs -> is_grid n m k (map (fun z => map2 (map2 op) z xs) zs).
Proof.
  intros Lx Wx [L F]. split; [rewrite map_length; exact L|]. apply Forall_map. eapply Forall_impl; [|exact F]. intros z [Lz W]. split.
  - rewrite map2_len_same. lia.
  - apply widths_map2_op; assumption.
Qed.
Lemma grid_grid_ok op n m k a b : is_grid n m k a -> is_grid n m k b -> is_grid n m k (map2 (map2 (map2 op)) a b).
Proof.
  intros Ga Gb. pose proof (grids_Forall2 n m k k a b Ga Gb) as F2. destruct Ga as [La Fa]; destruct Gb as [Lb Fb]. split.
  - rewrite map2_len_same. lia.
  - clear La Lb. revert Fa Fb. induction F2 as [|x y a b H _ IH]; intros Fa Fb; simpl; constructor.
    + inversion Fa as [|? ? [? ?] ?]; inversion Fb as [|? ? [? ?] ?]; subst. split; [rewrite map2_len_same; lia|]. apply widths_map2_op; assumption.
    + inversion Fa; inversion Fb; subst. apply IH; assumption.
Qed.

Lemma grid_tmap f n m k zs : tmap f (grid n m k zs) = grid n m k (map (map (map f)) zs).
Proof. unfold tmap, grid, batch. cbn [shp dat]. f_equal. rewrite !concat_map. reflexivity. Qed.
Lemma grid_trows n m k zs : is_grid n m k zs -> trows (grid n m k zs) = List.concat zs.
Proof. intros G. unfold grid. apply trows_batch; [eapply grid_widths; eauto|]. rewrite (grid_flat_length n m k) by assumption. simpl. lia. Qed.

(* one number per sample *)
Definition scalars (vals : list (list R)) : list (list (list R)) := map (map (fun v => [v])) vals.
Lemma grid_rowfun f n m k zs : is_grid n m k zs -> mkT ([n; m] ++ [1]) (map f (trows (grid n m k zs))) = grid n m 1 (scalars (map (map f) zs)).
Proof.
  intros G. rewrite grid_trows by assumption. unfold grid, batch, scalars. f_equal. rewrite concat_map, !map_map.
  rewrite concat_concat, map_map. f_equal. apply map_ext. intros z. rewrite map_map. induction z; simpl; congruence.
Qed.
Lemma grid_norm p n m k zs : is_grid n m k zs -> norm_last p (grid n m k zs) = grid n m 1 (scalars (map (map (pnorm p)) zs)).
Proof.
  intros G. exact (grid_rowfun (pnorm p) n m k zs G).
Qed.
Lemma grid_sum n m k zs : is_grid n m k zs -> sum_last (grid n m k zs) = grid n m 1 (scalars (map (map rsum) zs)).
Proof. intros G. exact (grid_rowfun rsum n m k zs G). Qed.

Definition is_vals (n m : nat) (vals : list (list R)) : Prop := length vals = n /\ Forall (fun v => length v = m) vals.
Lemma scalars_grid n m vals : is_vals n m vals -> is_grid n m 1 (scalars vals).
Proof.
  intros [L F]. split; [unfold scalars; rewrite map_length; exact L|]. apply Forall_map. eapply Forall_impl; [|exact F].
  intros v H. split; [rewrite map_length; exact H|]. apply widths_singletons.
Qed.
Lemma vals_of_grid n m k zs (f : vec -> R) : is_grid n m k zs -> is_vals n m (map (map f) zs).
Proof.
  intros [L F]. split; [rewrite map_length; exact L|]. apply Forall_map. eapply Forall_impl; [|exact F]. intros z [H _]. rewrite map_length. exact H.
Qed.
Lemma scalars_map f vals : map (map (map f)) (scalars vals) = scalars (map (map f) vals).
Proof. unfold scalars. rewrite !map_map. apply map_ext. intros v. rewrite !map_map. reflexivity. Qed.
Lemma scalars_map2 op a b : map2 (map2 (map2 op)) (scalars a) (scalars b) = scalars (map2 (map2 op) a b).
Proof.
  revert b. induction a as [|x a IH]; intros [|y b]; simpl; auto. rewrite IH. f_equal.
  revert y. induction x as [|u x IHx]; intros [|v y]; simpl; auto. rewrite IHx. reflexivity.
Qed.
Lemma vals_map f n m vals : is_vals n m vals -> is_vals n m (map (map f) vals).
Proof. intros [L F]. split; [rewrite map_length; exact L|]. apply Forall_map. eapply Forall_impl; [|exact F]. intros v H. rewrite map_length. exact H. Qed.
Lemma vals_map2 op n m a b : is_vals n m a -> is_vals n m b -> is_vals n m (map2 (map2 op) a b).
Proof.
  intros [La Fa] [Lb Fb]. split; [rewrite map2_len_same; lia|]. clear La Lb. revert b Fb.
  induction Fa as [|x a H _ IH]; intros [|y b] Fb; simpl; constructor.
  - inversion Fb; subst. rewrite map2_len_same. lia.
  - inversion Fb; subst. apply IH. assumption.
Qed.

Lemma per_sample_scalars n m vals : per_sample [n; m] (List.concat vals) = grid n m 1 (scalars vals).
Proof. unfold per_sample, grid, scalars. rewrite concat_map. reflexivity. Qed.

Lemma lse0_scalars n m vals : is_vals n m vals ->
  logsumexp0 (grid n m 1 (scalars vals)) = (2, map (fun j => logsumexp (map (fun v => nth j v 0%R) vals)) (seq 0 m)).
Proof.
  intros V. pose proof (scalars_grid n m vals V) as G. unfold logsumexp0, tdim, size0.
  change (shp (grid n m 1 (scalars vals))) with [n; m; 1]. change (dat (grid n m 1 (scalars vals))) with (List.concat (List.concat (scalars vals))).
  cbn [hd tl length pred]. f_equal. replace (prodl [m; 1]) with (m * 1) by (simpl; lia).
  rewrite (grid_blocks n m 1 (scalars vals) G). rewrite Nat.mul_1_r. apply map_ext. intros j. f_equal.
  unfold scalars. rewrite !map_map. apply map_ext. intros v. f_equal. induction v as [|x v IH]; simpl; congruence.
Qed.

(* ---------- costs ---------- *)
Lemma tcost_nc p power n m k xs zs yl zl : length xs = m -> widths k xs -> is_grid n m k zs ->
  t_cost (TNC p power) (batch [1; m] k xs) (grid n m k zs) yl zl = Ok (grid n m 1 (scalars (map (map2 (nc_value p power) xs) zs))).
Proof.
  intros Lx Wx G. unfold t_cost. rewrite (bc_lead Rminus n m k xs zs Lx Wx G). cbn [bind].
  rewrite (grid_norm p n m k) by (apply grid_lead_ok; assumption). rewrite grid_tmap, scalars_map. do 3 f_equal. rewrite !map_map. apply map_ext. intros z.
  rewrite !map_map2. apply map2_ext. reflexivity.
Qed.

(* the cost of one labelled point, as computed by the code *)
Definition nlc_point (p : nexp) (power : R) (k : kap) (a b : vec * vec) : R :=
  match k with
  | KInf => tpow (pnorm p (vsub (snd a) (snd b))) power
  | KFin k => if Reqb k 0 then tpow (pnorm p (vsub (fst a) (fst b))) power
              else tpow ((pnorm p (vsub (fst a) (fst b)) + k * pnorm p (vsub (snd a) (snd b))) / (1 + k)) power
  end.
Lemma nlc_point_value p power k a b : nlc_value p power k (fst a) (fst b) (Some (snd a)) (Some (snd b)) = Ok (nlc_point p power k a b).
Proof. unfold nlc_value, nlc_point. destruct k; [|reflexivity]. destruct (Reqb _ _); reflexivity. Qed.
Definition pt_cost (c : tcost) (a b : vec * vec) : R :=
  match c with TNC p power => nc_value p power (fst a) (fst b) | TNLC p power k => nlc_point p power k a b end.

Lemma per_point_scalars n m vals : per_point n m vals = grid n m 1 (scalars vals).
Proof. unfold per_point, grid, scalars. rewrite concat_map. reflexivity. Qed.

(* map2 over pairs *)
Lemma pairs_fst {A' C} (g : vec -> A' -> C) (a b : list vec) (a' : list A') : length a = length b ->
  map2 g a a' = map2 (fun p q => g (fst p) q) (pairs a b) a'.
Proof.
  unfold pairs. revert b a'. induction a as [|x a IH]; intros [|y b] a' L; simpl in L; try discriminate; [destruct a'; reflexivity|].
  destruct a' as [|x' a']; [reflexivity|]. cbn [List.combine map2 fst]. f_equal. apply IH; lia.
Qed.
Lemma pairs_snd {A' C} (g : vec -> A' -> C) (a b : list vec) (a' : list A') : length a = length b ->
  map2 g b a' = map2 (fun p q => g (snd p) q) (pairs a b) a'.
Proof.
  unfold pairs. revert b a'. induction a as [|x a IH]; intros [|y b] a' L; simpl in L; try discriminate; [destruct a'; reflexivity|].
  destruct a' as [|x' a']; [reflexivity|]. cbn [List.combine map2 snd]. f_equal. apply IH; lia.
Qed.
Lemma pairs_fst_r {A' C} (g : A' -> vec -> C) (a b : list vec) (a' : list A') : length a = length b ->
  map2 g a' a = map2 (fun p q => g p (fst q)) a' (pairs a b).
Proof. intros L. rewrite map2_comm, (pairs_fst _ a b) by exact L. rewrite map2_comm. reflexivity. Qed.
Lemma pairs_snd_r {A' C} (g : A' -> vec -> C) (a b : list vec) (a' : list A') : length a = length b ->
  map2 g a' b = map2 (fun p q => g p (snd q)) a' (pairs a b).
Proof. intros L. rewrite map2_comm, (pairs_snd _ a b) by exact L. rewrite map2_comm. reflexivity. Qed.
Lemma pairs_map2 {C} (g : vec -> vec -> C) a b : map2 g a b = map (fun p => g (fst p) (snd p)) (pairs a b).
Proof. unfold pairs. revert b. induction a as [|x a IH]; intros [|y b]; simpl; auto. rewrite IH. reflexivity. Qed.
Lemma pairs_length a b : length a = length b -> length (pairs a b) = length a.
Proof. intros L. unfold pairs. rewrite combine_length, L. apply Nat.min_id. Qed.
Lemma map2_of_map2 {A B C D E} (h : C -> D -> E) (f : A -> B -> C) (g : A -> B -> D) l l' :
  map2 h (map2 f l l') (map2 g l l') = map2 (fun a b => h (f a b) (g a b)) l l'.
Proof. revert l'. induction l as [|x l IH]; intros [|y l']; simpl; auto. rewrite IH. reflexivity. Qed.
Lemma map2_const_l {A B C} (f : A -> B -> C) (x : B -> A) l : map2 f (map x l) l = map (fun b => f (x b) b) l.
Proof. rewrite map2_map_l. apply map2_same. Qed.

Lemma nth_map2 {A B C} (f : A -> B -> C) dA dB dC j a b : j < length a -> j < length b -> nth j (map2 f a b) dC = f (nth j a dA) (nth j b dB).
Proof. revert a b. induction j as [|j IH]; intros [|x a] [|y b] Ha Hb; simpl in *; try lia; auto. apply IH; lia. Qed.
Lemma nth_map_lt {A B} (f : A -> B) dA dB j a : j < length a -> nth j (map f a) dB = f (nth j a dA).
Proof. revert a. induction j as [|j IH]; intros [|x a] Ha; simpl in *; try lia; auto. apply IH; lia. Qed.

(* a grid of labelled points *)
Definition pgrid (zs zls : list (list (list R))) : list (list (vec * vec)) := map2 pairs zs zls.
Lemma pgrid_fst {A' C} (g : A' -> vec -> C) n m k kl zs zls (xs : list A') : is_grid n m k zs -> is_grid n m kl zls ->
  map (map2 g xs) zs = map (map2 (fun x q => g x (fst q)) xs) (pgrid zs zls).
Proof.
  intros G G'. pose proof (grids_Forall2 n m k kl zs zls G G') as F. unfold pgrid. rewrite map_map2. clear G G'.
  induction F as [|z zl zs zls H _ IH]; simpl; [reflexivity|]. rewrite IH. f_equal. apply pairs_fst_r. exact H.
Qed.
Lemma pgrid_snd {A' C} (g : A' -> vec -> C) n m k kl zs zls (xs : list A') : is_grid n m k zs -> is_grid n m kl zls ->
  map (map2 g xs) zls = map (map2 (fun x q => g x (snd q)) xs) (pgrid zs zls).
Proof.
  intros G G'. pose proof (grids_Forall2 n m k kl zs zls G G') as F. unfold pgrid. rewrite map_map2. clear G G'.
  induction F as [|z zl zs zls H _ IH]; simpl; [reflexivity|]. rewrite IH. f_equal. apply pairs_snd_r. exact H.
Qed.
Lemma pgrid_map2 {C} (g : vec -> vec -> C) zs zls : map2 (map2 g) zs zls = map (map (fun q => g (fst q) (snd q))) (pgrid zs zls).
Proof. unfold pgrid. rewrite map_map2. apply map2_ext. intros a b. apply pairs_map2. Qed.
Definition is_points {P} (n m : nat) (zs : list (list P)) : Prop := length zs = n /\ Forall (fun z => length z = m) zs.
Lemma pgrid_points n m k kl zs zls : is_grid n m k zs -> is_grid n m kl zls -> is_points n m (pgrid zs zls).
Proof.
  intros G G'. pose proof (grids_Forall2 n m k kl zs zls G G') as F. destruct G as [L G]; destruct G' as [L' _]. split.
  - unfold pgrid. rewrite map2_len_same. unfold vec in *. lia.
  - unfold pgrid. clear L L'. induction F as [|z zl zs zls H _ IH]; simpl; constructor.
    + inversion G as [|? ? [? _] ?]; subst. apply pairs_length. exact H.
    + inversion G; subst. apply IH. assumption.
Qed.
Lemma grid_points n m k zs : is_grid n m k zs -> is_points n m zs.
Proof. intros [L F]. split; [exact L|]. eapply Forall_impl; [|exact F]. intros z [H _]. exact H. Qed.
Lemma vals_points {P} n m (zs : list (list P)) (f : P -> R) : is_points n m zs -> is_vals n m (map (map f) zs).
Proof. intros [L F]. split; [rewrite map_length; exact L|]. apply Forall_map. eapply Forall_impl; [|exact F]. intros z H. rewrite map_length. exact H. Qed.
Lemma vals_points2 {P Q} n m (xs : list Q) (zs : list (list P)) (f : Q -> P -> R) : length xs = m -> is_points n m zs -> is_vals n m (map (map2 f xs) zs).
Proof.
  intros Lx [L F]. split; [rewrite map_length; exact L|]. apply Forall_map. eapply Forall_impl; [|exact F]. intros z H. cbv beta in H |- *.
  rewrite map2_len_same, H, Lx. apply Nat.min_id.
Qed.

Lemma tcost_labelled c n m k kl xs ys zs zls : length xs = m -> length ys = m -> widths k xs -> widths kl ys -> is_grid n m k zs -> is_grid n m kl zls ->
  t_cost c (batch [1; m] k xs) (grid n m k zs) (Some (batch [1; m] kl ys)) (Some (grid n m kl zls))
  = Ok (grid n m 1 (scalars (map (map2 (pt_cost c) (pairs xs ys)) (pgrid zs zls)))).
Proof.
  intros Lx Ly Wx Wy G G'. assert (Lxy : length xs = length ys) by congruence.
  destruct c as [p power|p power kap].
  - rewrite tcost_nc by assumption. do 3 f_equal.
    rewrite (pgrid_fst (nc_value p power) n m k kl zs zls xs G G'). apply map_ext. intros z. apply (pairs_fst (fun x q => nc_value p power x (fst q))). exact Lxy.
  - assert (A : (do diff <- bcast Rminus (batch [1; m] k xs) (grid n m k zs); Ok (tmap (fun a => tpow a power) (norm_last p diff)))
              = Ok (grid n m 1 (scalars (map (map2 (nc_value p power) xs) zs)))) by (exact (tcost_nc p power n m k xs zs None None Lx Wx G)).
    assert (B : (do diff <- bcast Rminus (batch [1; m] kl ys) (grid n m kl zls); Ok (tmap (fun a => tpow a power) (norm_last p diff)))
              = Ok (grid n m 1 (scalars (map (map2 (nc_value p power) ys) zls)))) by (exact (tcost_nc p power n m kl ys zls None None Ly Wy G')).
    cbn [t_cost]. destruct kap as [q|].
    + destruct (Reqb q 0) eqn:E.
      * rewrite A. do 3 f_equal. rewrite (pgrid_fst (nc_value p power) n m k kl zs zls xs G G'). apply map_ext. intros z.
        rewrite (pairs_fst _ xs ys) by exact Lxy. apply map2_ext. intros a b. unfold pt_cost, nlc_point. rewrite E. reflexivity.
      * rewrite (bc_lead Rminus n m k xs zs Lx Wx G), (bc_lead Rminus n m kl ys zls Ly Wy G'). cbn [bind].
        rewrite (grid_norm p n m k) by (apply grid_lead_ok; assumption). rewrite (grid_norm p n m kl) by (apply grid_lead_ok; assumption).
        rewrite grid_tmap, scalars_map.
        assert (V : is_vals n m (map (map (pnorm p)) (map (map2 (map2 Rminus) xs) zs))) by (eapply vals_of_grid, grid_lead_ok; eassumption).
        assert (V' : is_vals n m (map (map (Rmult q)) (map (map (pnorm p)) (map (map2 (map2 Rminus) ys) zls)))).
        { apply vals_map. eapply vals_of_grid, grid_lead_ok; eassumption. }
        rewrite bc_grid by (apply scalars_grid; assumption). cbn [bind]. rewrite scalars_map2, !grid_tmap, !scalars_map. do 3 f_equal.
        rewrite !map_map. unfold pgrid. pose proof (grids_Forall2 n m k kl zs zls G G') as F. clear - F Lxy E.
        induction F as [|z zl zs zls H _ IH]; cbn [map map2]; [reflexivity|]. rewrite IH. f_equal. clear IH.
        rewrite (pairs_fst_r (map2 Rminus) z zl) by exact H. rewrite (pairs_snd_r (map2 Rminus) z zl) by exact H.
        rewrite (pairs_fst _ xs ys) by exact Lxy. rewrite (pairs_snd _ xs ys) by exact Lxy.
        unfold vec in *. rewrite !map_map2, map2_of_map2, ?map_map2. apply map2_ext. intros a b. unfold pt_cost, nlc_point. rewrite E. reflexivity.
    + rewrite B. do 3 f_equal. rewrite (pgrid_snd (nc_value p power) n m k kl zs zls ys G G'). apply map_ext. intros z.
      rewrite (pairs_snd _ xs ys) by exact Lxy. apply map2_ext. reflexivity.
Qed.

(* ---------- reduction to rows ---------- *)
Lemma map_nth_seq {A B} (f : A -> B) dA l : map (fun j => f (nth j l dA)) (seq 0 (length l)) = map f l.
Proof. induction l as [|x l IH]; [reflexivity|]. cbn [length seq map nth]. f_equal. rewrite <- seq_shift, map_map. exact IH. Qed.
Lemma singles l : List.concat (map (fun v : R => [v]) l) = l.
Proof. induction l as [|x l IH]; simpl; congruence. Qed.

Lemma penalised_row {P} (L : P -> R) C d : forall (xs z : list P), length xs = length z ->
  map (fun a => (a / d_eps d)%R) (map2 Rminus (map L z) (map (Rmult (d_lam d)) (map2 C xs z))) = map2 (integrand P L C d) xs z.
Proof.
  induction xs as [|x xs IH]; intros [|y z] E; simpl in E; try discriminate; [reflexivity|]. cbn [map map2]. rewrite IH by lia. reflexivity.
Qed.

Section Refine.
Variable loss_call : tensor -> option tensor -> Result tensor.
Variable w : wrapped.
Variable c : tcost.
Variable s : tsampler.
Variable grads : tensor -> option tensor -> Result (list (list xr) * option (list (list xr))).
Variable P : Type.
Variable dflt : P.
Variable L : P -> R.
Variable C : P -> P -> R.
Variable xi : tensor. Variable xil : option tensor.
Variable xs means : list P.
Variables n m : nat.
Hypothesis Lx : length xs = m.
Hypothesis Lm : length means = m.
Hypothesis Herm : w_value loss_call w (unsqueeze_first xi) (option_map unsqueeze_first xil) = Ok (grid 1 m 1 (scalars [map L xs])).

Lemma penalised_grid d zt zlt zs : is_points n m zs ->
  w_value loss_call w zt zlt = Ok (grid n m 1 (scalars (map (map L) zs))) ->
  t_cost c (unsqueeze_first xi) zt (option_map unsqueeze_first xil) zlt = Ok (grid n m 1 (scalars (map (map2 C xs) zs))) ->
  t_penalised loss_call w c d xi xil zt zlt = Ok (grid n m 1 (scalars (map (map2 (integrand P L C d) xs) zs))).
Proof.
  intros Z Hv Hc. unfold t_penalised. rewrite Hv, Hc. cbn [bind]. rewrite grid_tmap, scalars_map.
  rewrite bc_grid; [|apply scalars_grid, vals_points; exact Z|apply scalars_grid, vals_map, vals_points2; assumption].
  cbn [bind]. rewrite scalars_map2, grid_tmap, scalars_map. do 3 f_equal. rewrite !map_map, map2_map_l, map2_map_r, map2_same, map_map.
  apply map_ext_in. intros z Hz. destruct Z as [_ F]. rewrite Forall_forall in F. specialize (F z Hz).
  apply penalised_row. congruence.
Qed.

Lemma erm_rows d zs : t_erm loss_call w d xi xil = erm_branch P L d 2 (point_rows dflt means xs zs).
Proof.
  unfold t_erm, erm_branch. rewrite Herm. cbn [bind].
  replace (squeeze0 (grid 1 m 1 (scalars [map L xs]))) with (mkT [m; 1] (map L xs)).
  2:{ unfold grid, batch, squeeze0, scalars. cbn [shp dat app map]. cbn [List.concat]. rewrite app_nil_r, singles. reflexivity. }
  unfold tdim. cbn [shp dat length].
  replace (map (fun r : row P => Fin (L (r_xi r))) (point_rows dflt means xs zs)) with (map Fin (map L xs)); [reflexivity|].
  unfold point_rows. rewrite !map_map. cbn [r_xi]. symmetry. apply (map_nth_seq (fun x => Fin (L x))).
Qed.

Lemma dual_core d zt zlt displ lp lpr zs vals cols :
  is_vals n m vals -> d_power d = tc_power c ->
  t_integrand loss_call w c s grads d xi xil zt zlt = Ok (grid n m 1 (scalars vals), n) ->
  integrands P L C displ lp lpr d (point_rows dflt means xs zs) = Ok cols ->
  cols = map (fun j => map (fun v => nth j v 0%R) vals) (seq 0 m) ->
  t_compute_dual loss_call w c s grads d xi xil zt zlt = compute_dual P L C displ lp lpr d n (point_rows dflt means xs zs).
Proof.
  intros V Hp Ht Hi Hcols. unfold t_compute_dual, compute_dual. rewrite (erm_rows d zs).
  destruct (xeq (d_rho d) (Fin 0) || d_erm d); [reflexivity|]. destruct (xlt (Fin 0) (d_rho d)); [|reflexivity].
  rewrite Ht, Hi. cbn [bind]. rewrite (lse0_scalars n m vals V). cbn [fst snd]. rewrite Hp, Hcols, map_map. reflexivity.
Qed.

Lemma dual_plain d zt zlt displ lp lpr zs : is_points n m zs -> d_power d = tc_power c -> d_imp d = false -> size0 zt = n ->
  w_value loss_call w zt zlt = Ok (grid n m 1 (scalars (map (map L) zs))) ->
  t_cost c (unsqueeze_first xi) zt (option_map unsqueeze_first xil) zlt = Ok (grid n m 1 (scalars (map (map2 C xs) zs))) ->
  t_compute_dual loss_call w c s grads d xi xil zt zlt = compute_dual P L C displ lp lpr d n (point_rows dflt means xs zs).
Proof.
  intros Z Hp Hi Hs Hv Hc. eapply dual_core.
  - apply (vals_points2 n m xs zs (integrand P L C d)); assumption.
  - exact Hp.
  - unfold t_integrand. rewrite Hi, (penalised_grid d zt zlt zs) by assumption. cbn [bind]. rewrite Hs. reflexivity.
  - unfold integrands. rewrite Hi. reflexivity.
  - unfold point_rows. rewrite map_map. cbn [r_xi r_zeta]. rewrite Lx. apply map_ext_in. intros j Hj. apply in_seq in Hj. rewrite !map_map.
    apply map_ext_in. intros z Hz. destruct Z as [_ F]. rewrite Forall_forall in F. specialize (F z Hz). symmetry. apply nth_map2; lia.
Qed.

(* with importance sampling: xs' and zs' are the displaced points *)
Lemma integrand_imp d zt zlt g gl xt xlt zt' zlt' (lp : P -> P -> R) (lpr : P -> P -> P -> R) xs' zs' :
  is_points n m zs' -> length xs' = m -> d_imp d = true -> size0 zt' = n ->
  grads xi xil = Ok (g, gl) ->
  t_displace c threshold_default (Fin (d_lam d)) g gl xi xil zt zlt = Ok (xt, xlt, zt', zlt') ->
  w_value loss_call w zt' zlt' = Ok (grid n m 1 (scalars (map (map L) zs'))) ->
  t_cost c (unsqueeze_first xi) zt' (option_map unsqueeze_first xil) zlt' = Ok (grid n m 1 (scalars (map (map2 C xs) zs'))) ->
  t_log_prob s zt' zlt' = Ok (grid n m 1 (scalars (map (map2 lp means) zs'))) ->
  t_log_prob_recentered s xt xlt zt' zlt' = Ok (grid n m 1 (scalars (map (map2 (fun mx z => lpr (fst mx) (snd mx) z) (List.combine means xs')) zs'))) ->
  exists vals, is_vals n m vals /\ t_integrand loss_call w c s grads d xi xil zt zlt = Ok (grid n m 1 (scalars vals), n) /\
    forall j, j < m -> map (fun v => nth j v 0%R) vals
      = map (fun z => (integrand P L C d (nth j xs dflt) (nth j z dflt)
                       + (lp (nth j means dflt) (nth j z dflt) - lpr (nth j means dflt) (nth j xs' dflt) (nth j z dflt)))%R) zs'.
Proof.
  intros Z Lx' Hi Hs Hg Hd Hv Hc Hlp Hlpr.
  assert (Lmx : length (List.combine means xs') = m) by (rewrite combine_length; lia).
  pose proof (vals_points2 n m xs zs' (integrand P L C d) Lx Z) as V1.
  pose proof (vals_points2 n m means zs' lp Lm Z) as V2.
  pose proof (vals_points2 n m (List.combine means xs') zs' (fun mx z => lpr (fst mx) (snd mx) z) Lmx Z) as V3.
  eexists. split; [exact (vals_map2 Rplus n m _ _ V1 (vals_map2 Rminus n m _ _ V2 V3))|]. split.
  - unfold t_integrand. rewrite Hi, Hg. cbn [bind]. rewrite Hd. cbn [bind]. rewrite (penalised_grid d zt' zlt' zs') by assumption. cbn [bind].
    rewrite Hlp, Hlpr. cbn [bind]. rewrite bc_grid by (apply scalars_grid; assumption). cbn [bind]. rewrite scalars_map2.
    rewrite bc_grid; [|apply scalars_grid; assumption|apply scalars_grid, vals_map2; assumption].
    cbn [bind]. rewrite scalars_map2, Hs. reflexivity.
  - intros j Hj. repeat first [rewrite map2_map_l|rewrite map2_map_r|rewrite map2_same|rewrite map_map].
    apply map_ext_in. intros z Hz. destruct Z as [_ F]. rewrite Forall_forall in F. specialize (F z Hz).
    rewrite (nth_map2 Rplus 0%R 0%R); [|rewrite map2_len_same; lia|rewrite !map2_len_same; lia].
    rewrite (nth_map2 Rminus 0%R 0%R); [|rewrite map2_len_same; lia|rewrite !map2_len_same; lia].
    rewrite (nth_map2 (integrand P L C d) dflt dflt), (nth_map2 lp dflt dflt), (nth_map2 _ (dflt, dflt) dflt) by lia.
    rewrite combine_nth by lia. reflexivity.
Qed.

Lemma integrand_plain d zt zlt zs : is_points n m zs -> d_imp d = false -> size0 zt = n ->
  w_value loss_call w zt zlt = Ok (grid n m 1 (scalars (map (map L) zs))) ->
  t_cost c (unsqueeze_first xi) zt (option_map unsqueeze_first xil) zlt = Ok (grid n m 1 (scalars (map (map2 C xs) zs))) ->
  exists vals, is_vals n m vals /\ t_integrand loss_call w c s grads d xi xil zt zlt = Ok (grid n m 1 (scalars vals), n) /\
    forall j, j < m -> map (fun v => nth j v 0%R) vals = map (fun z => integrand P L C d (nth j xs dflt) (nth j z dflt)) zs.
Proof.
  intros Z Hi Hs Hv Hc. eexists. split; [apply (vals_points2 n m xs zs (integrand P L C d)); assumption|]. split.
  - unfold t_integrand. rewrite Hi, (penalised_grid d zt zlt zs) by assumption. cbn [bind]. rewrite Hs. reflexivity.
  - intros j Hj. rewrite map_map. apply map_ext_in. intros z Hz. destruct Z as [_ F]. rewrite Forall_forall in F. specialize (F z Hz). apply nth_map2; lia.
Qed.

(* the value for a positive radius *)
Lemma mean_value d zt zlt vals rho (f : nat -> list R) :
  is_vals n m vals -> 0 < n -> 0 < m -> d_rho d = Fin rho -> (0 < rho)%R -> d_erm d = false -> d_reduction d = "mean"%string ->
  t_integrand loss_call w c s grads d xi xil zt zlt = Ok (grid n m 1 (scalars vals), n) ->
  (forall j, j < m -> map (fun v => nth j v 0%R) vals = f j) ->
  t_compute_dual loss_call w c s grads d xi xil zt zlt
  = Ok (Scalar (Fin (d_lam d * Rpower rho (tc_power c) + rmean (map (fun j => d_eps d * ln (rmean (map exp (f j)))) (seq 0 m)))%R)).
Proof.
  intros V Hn Hm Hr Hp He Hred Ht Hf. unfold t_compute_dual. rewrite Hr, He, orb_false_r. rewrite not_zero_pos, pos_lt by exact Hp.
  rewrite Ht. cbn [bind]. rewrite (lse0_scalars n m vals V). cbn [fst snd]. rewrite Hred.
  assert (Hl : forall j, j < m -> length (f j) = n) by (intros j Hj; rewrite <- (Hf j Hj), map_length; apply V).
  rewrite (map_ext_in _ (fun j => Fin (ln (rmean (map exp (f j))) + ln (INR n))%R)).
  - rewrite (reduce_mean_fin (fun j => (ln (rmean (map exp (f j))) + ln (INR n))%R) (seq 0 m)) by (destruct m; [lia|discriminate]).
    cbn [bind out_map]. rewrite (xlog_pos n Hn). simpl.
    assert (Hs : seq 0 m <> []) by (destruct m; [lia|discriminate]).
    do 4 f_equal. rewrite rmean_map_plus, rmean_map_const, rmean_map_scal by exact Hs. ring.
  - intros j Hj. apply in_seq in Hj. rewrite (Hf j) by lia. specialize (Hl j ltac:(lia)).
    destruct (f j) as [|a l] eqn:E; [simpl in Hl; lia|]. unfold logsumexp. f_equal. unfold rmean. rewrite map_length, Hl.
    assert (Hi : (0 < INR n)%R) by (apply lt_0_INR; exact Hn).
    assert (HS : (0 < rsum (map exp (a :: l)))%R) by (apply rsum_pos; [discriminate|]; apply Forall_map, Forall_forall; intros; apply exp_pos).
    unfold Rdiv. rewrite ln_mult by (try apply Rinv_0_lt_compat; assumption). rewrite ln_Rinv by exact Hi. ring.
Qed.
End Refine.

(* ---------- the wrapped losses, on samples and on the data ---------- *)
Lemma unsq_grid m k xs : unsqueeze_first (batch [m] k xs) = grid 1 m k [xs].
Proof. unfold unsqueeze_first, grid, batch. cbn [shp dat app List.concat]. rewrite app_nil_r. reflexivity. Qed.
Lemma unsq_batch m k xs : unsqueeze_first (batch [m] k xs) = batch [1; m] k xs.
Proof. reflexivity. Qed.
Lemma grid_one m k xs : length xs = m -> widths k xs -> is_grid 1 m k [xs].
Proof. intros L W. split; [reflexivity|]. constructor; [split; assumption|constructor]. Qed.

(* ---------- log-densities ---------- *)
Lemma lp_grid sc n m k means zs : length means = m -> widths k means -> is_grid n m k zs ->
  normal_lp sc (batch [m] k means) (grid n m k zs) = Ok (grid n m 1 (scalars (map (map2 (row_log_prob sc) means) zs))).
Proof.
  intros Lm W G. unfold normal_lp. rewrite bc_flat_l by assumption. cbn [bind].
  change (tdim (grid n m k (map (map2 (map2 (normal_log_prob sc)) means) zs))) with 3. cbn [Nat.eqb].
  rewrite (grid_sum n m k) by (apply grid_lead_ok; assumption). do 3 f_equal. rewrite map_map. apply map_ext. intros z. apply map_map2.
Qed.

Lemma map2_combine_l {A B C D} (f : B -> D -> C) (g : A -> C -> R) (a : list A) (b : list B) (z : list D) : length a = length b ->
  map2 g a (map2 f b z) = map2 (fun ab x => g (fst ab) (f (snd ab) x)) (List.combine a b) z.
Proof.
  revert b z. induction a as [|x a IH]; intros [|y b] z L; simpl in L; try discriminate; [reflexivity|].
  destruct z as [|u z]; [reflexivity|]. cbn [List.combine map2 fst snd]. f_equal. apply IH. lia.
Qed.
Lemma recentre_rows sc (means xs z : list (list R)) : length means = length xs ->
  map2 (row_log_prob sc) means (map2 (map2 Rplus) (map2 (map2 Rminus) z xs) means)
  = map2 (fun mx u => nolabels_log_prob_recentered sc (fst mx) (snd mx) u) (List.combine means xs) z.
Proof.
  revert xs z. induction means as [|mu means IH]; intros [|x xs] z L; simpl in L; try discriminate; [reflexivity|].
  destruct z as [|u z]; [reflexivity|]. cbn [List.combine map2 fst snd]. f_equal. apply IH. lia.
Qed.

Lemma plain_lpr sc n m k means xs zs : length means = m -> length xs = m -> widths k means -> widths k xs -> is_grid n m k zs ->
  t_log_prob_recentered (TPlain (batch [m] k means) sc) (batch [1; m] k xs) None (grid n m k zs) None
  = Ok (grid n m 1 (scalars (map (map2 (fun mx z => nolabels_log_prob_recentered sc (fst mx) (snd mx) z) (List.combine means xs)) zs))).
Proof.
  intros Lm Lx Wm Wx G. cbn [t_log_prob_recentered]. rewrite bc_trail by assumption. cbn [bind].
  rewrite bc_flat_r by (try assumption; apply grid_trail_ok; assumption). cbn [bind].
  rewrite lp_grid by (try assumption; apply grid_trail_ok; try assumption; apply grid_trail_ok; assumption).
  do 3 f_equal. rewrite !map_map. apply map_ext. intros z. apply recentre_rows. congruence.
Qed.

Lemma labelled_lp sx sy n m k kl means lmeans zs zls : length means = m -> length lmeans = m -> widths k means -> widths kl lmeans ->
  is_grid n m k zs -> is_grid n m kl zls ->
  t_log_prob (TLabelled (batch [m] k means) sx (batch [m] kl lmeans) sy) (grid n m k zs) (Some (grid n m kl zls))
  = Ok (grid n m 1 (scalars (map (map2 (labelled_log_prob sx sy) (pairs means lmeans)) (pgrid zs zls)))).
Proof.
  intros Lm Ll Wm Wl G G'. assert (LL : length means = length lmeans) by congruence. cbn [t_log_prob]. rewrite lp_grid by assumption. rewrite lp_grid by assumption. cbn [bind].
  rewrite bc_grid by (apply scalars_grid, (vals_points2 n m); [assumption|eapply grid_points; eassumption]).
  do 2 f_equal. rewrite scalars_map2. f_equal.
  rewrite (pgrid_fst (row_log_prob sx) n m k kl zs zls means G G'), (pgrid_snd (row_log_prob sy) n m k kl zs zls lmeans G G').
  rewrite map2_map_l, map2_map_r, map2_same. apply map_ext. intros z.
  rewrite (pairs_fst _ means lmeans) by exact LL. rewrite (pairs_snd _ means lmeans) by exact LL. rewrite map2_of_map2. reflexivity.
Qed.
Lemma map2_combine_fst {A B C} (f : A -> C -> R) (a : list A) (b : list B) (z : list C) : length a = length b ->
  map2 f a z = map2 (fun ab x => f (fst ab) x) (List.combine a b) z.
Proof.
  revert b z. induction a as [|x a IH]; intros [|y b] z L; simpl in L; try discriminate; [reflexivity|].
  destruct z as [|u z]; [reflexivity|]. cbn [List.combine map2 fst]. f_equal. apply IH. lia.
Qed.

(* ---------- displacement ---------- *)
Lemma rows_tensor_fin k DX : DX <> [] -> widths k DX -> rows_tensor (map (map Fin) DX) = batch [1; length DX] k DX.
Proof.
  intros N W. unfold rows_tensor. rewrite map_length, map_map. rewrite (map_ext _ (fun x => x)), map_id.
  2:{ intros x. rewrite map_map. simpl. apply map_id. }
  f_equal. destruct DX as [|r DX]; [congruence|]. simpl. rewrite map_length. inversion W; subst. reflexivity.
Qed.

Lemma valid_fin DX DL : invalid_displacement (map (map Fin) DX, option_map (map (map Fin)) DL) = false.
Proof.
  assert (H : forall l, check_tensor_validity (map (map Fin) l) = false).
  { intros l. unfold check_tensor_validity. induction l as [|r l IH]; [reflexivity|]. simpl. rewrite IH, orb_false_r.
    induction r as [|x r IHr]; [reflexivity|]. simpl. exact IHr. }
  unfold invalid_displacement. cbn [fst snd]. rewrite H. destruct DL; simpl; auto.
Qed.

(* where a point goes *)
Definition half_move (x d : vec) : vec := vadd x (map (Rmult (/ 2)) d).
Definition label_move (c : tcost) (y d : vec) : vec :=
  match c with
  | TNC _ _ => y
  | TNLC _ _ k => vadd y (map (fun a => match k with KFin k => (/ 2 * a / k)%R | KInf => 0%R end) d)
  end.
Definition square_cost (c : tcost) : Prop := nexp_is_2 (tc_p c) && Reqb 2 (tc_power c) = true.

Lemma widths_map_row f k l : widths k l -> widths k (map (map f) l).
Proof. intros W. apply Forall_map. eapply Forall_impl; [|exact W]. intros r H. rewrite map_length. exact H. Qed.

Lemma move_plain_grid c n m k zs DX : square_cost c -> length DX = m -> widths k DX -> is_grid n m k zs ->
  t_solve_max c (grid n m k zs) None (batch [1; m] k DX) None = Ok (grid n m k (map (fun z => map2 half_move z DX) zs), None).
Proof.
  intros Hc L W G. unfold t_solve_max. rewrite Hc.
  replace (tmap (Rmult (/ 2)) (batch [1; m] k DX)) with (batch [1; m] k (map (map (Rmult (/ 2))) DX)).
  2:{ unfold tmap, batch. cbn [shp dat]. rewrite concat_map. reflexivity. }
  rewrite bc_trail; [|rewrite map_length; exact L|apply widths_map_row; exact W|exact G]. cbn [bind].
  destruct c; do 3 f_equal; apply map_ext; intros z; rewrite map2_map_r; reflexivity.
Qed.
Lemma move_labelled_grid c n m k kl zs zls DX DL : square_cost c -> length DX = m -> widths k DX -> length DL = m -> widths kl DL ->
  is_grid n m k zs -> is_grid n m kl zls ->
  t_solve_max c (grid n m k zs) (Some (grid n m kl zls)) (batch [1; m] k DX) (Some (batch [1; m] kl DL))
  = Ok (grid n m k (map (fun z => map2 half_move z DX) zs), Some (grid n m kl (map (fun z => map2 (label_move c) z DL) zls))).
Proof.
  intros Hc L W L' W' G G'. unfold t_solve_max. rewrite Hc.
  replace (tmap (Rmult (/ 2)) (batch [1; m] k DX)) with (batch [1; m] k (map (map (Rmult (/ 2))) DX)).
  2:{ unfold tmap, batch. cbn [shp dat]. rewrite concat_map. reflexivity. }
  rewrite bc_trail; [|rewrite map_length; exact L|apply widths_map_row; exact W|exact G]. cbn [bind].
  assert (X : map (fun z => map2 (map2 Rplus) z (map (map (Rmult (/ 2))) DX)) zs = map (fun z => map2 half_move z DX) zs).
  { apply map_ext. intros z. rewrite map2_map_r. reflexivity. }
  rewrite X. destruct c as [p power|p power kap].
  - do 4 f_equal. destruct G' as [_ F]. rewrite <- (map_id zls) at 1. apply map_ext_in. intros z Hz. rewrite Forall_forall in F. destruct (F z Hz) as [Lz _].
    clear - Lz L'. unfold vec in *. assert (E : length z = length DL) by congruence. clear Lz L'. revert DL E. induction z as [|x z IH]; intros [|y l] E; simpl in E; try discriminate; [reflexivity|].
    cbn [map2 label_move]. f_equal. apply IH. lia.
  - set (f := fun a => match kap with KFin k0 => (/ 2 * a / k0)%R | KInf => 0%R end).
    replace (tmap f (batch [1; m] kl DL)) with (batch [1; m] kl (map (map f) DL)).
    2:{ unfold tmap, batch. cbn [shp dat]. rewrite concat_map. reflexivity. }
    rewrite bc_trail; [|rewrite map_length; exact L'|apply widths_map_row; exact W'|exact G']. cbn [bind].
    do 4 f_equal. apply map_ext. intros z. rewrite map2_map_r. reflexivity.
Qed.
