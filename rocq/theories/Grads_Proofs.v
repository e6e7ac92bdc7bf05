(* Proofs about the per-sample gradients. *)
From Coq Require Import Reals List Bool Arith Lra Lia.
From Verif Require Import PyBase RList XReal Tensor Loss_Model Loss_Spec Loss_Proofs TDual_Model Gradient Grads_Model Props_Loss.
Import ListNotations.
Local Open Scope R_scope.
Local Notation length := List.length.

(* ---------- the function of one sample ---------- *)
Lemma one_row v : unsqueeze_first (vtensor v) = batch [length [v]] (length v) [v].
Proof. unfold unsqueeze_first, vtensor, batch. simpl. rewrite app_nil_r. reflexivity. Qed.

Section Single.
Variables (loss : tensor -> option tensor -> Result tensor) (w : wrapped) (c : R).
Hypothesis Hc : regularised_by w c.

Lemma single_labelled d dl k g x y : w_has_labels w = true -> w_reduce w = true -> (0 < k)%nat -> (forall x y, length (g x y) = k) -> rowwise_labelled loss d dl k g ->
  length x = d -> length y = dl -> sample_loss (w_value loss w) x (Some y) = Ok (rmean (g x y) + c).
Proof.
  intros HL Hr K Hg Hl Lx Ly. unfold sample_loss, call_loss. cbn [option_map]. rewrite !one_row. subst d dl.
  assert (W1 : widths (length x) [x]) by (repeat constructor). assert (W2 : widths (length y) [y]) by (repeat constructor).
  pose proof (flat_labelled loss w c (regularised_reg w c Hc) (length x) (length y) k g Hl [x] [y] W1 W2 eq_refl) as F.
  unfold w_value. rewrite HL. cbn [length] in *. change (tdim (batch [1%nat] (length x) [x])) with 2%nat. change (tdim (batch [1%nat] (length y) [y])) with 2%nat. cbn [Nat.ltb Nat.leb Nat.eqb andb].
  unfold vec in *. rewrite F. cbn [bind]. unfold reduce_flat. rewrite Hr. cbn [map map2].
  assert (Lg : length (map (fun a => a + c) (g x y)) = k) by (rewrite map_length; apply Hg).
  assert (M : rmean (map (fun a => a + c) (g x y)) = rmean (g x y) + c).
  { rewrite (rmean_map_plus (fun a => a) (fun _ => c)), map_id, rmean_map_const; [reflexivity|]. intros E. specialize (Hg x y). rewrite E in Hg. simpl in Hg. lia. }
  unfold batch at 1, squeeze. cbn [shp app filter Nat.eqb negb dat List.concat]. rewrite app_nil_r. destruct (Nat.eqb_spec k 1) as [E|E].
  - subst k. cbn. rewrite <- M. destruct (g x y) as [|v [|]]; try discriminate. cbn. unfold rmean. simpl. f_equal. field.
  - cbn [filter Nat.eqb negb]. destruct k as [|[|k]]; [lia|lia|]. cbn [Nat.eqb negb]. unfold mean_last. cbn [shp]. unfold trows. cbn [removelast shp last prodl chunks map dat app].
    rewrite firstn_all2 by (unfold vec in *; lia). rewrite M. reflexivity.
Qed.
Lemma single_flat d dl h x y : w_has_labels w = true -> w_reduce w = false -> rowwise_flat_labelled loss d dl h ->
  length x = d -> length y = dl -> sample_loss (w_value loss w) x (Some y) = Ok (h x y + c).
Proof.
  intros HL Hr Hl Lx Ly. unfold sample_loss, call_loss. cbn [option_map]. rewrite !one_row. subst d dl.
  assert (W1 : widths (length x) [x]) by (repeat constructor). assert (W2 : widths (length y) [y]) by (repeat constructor).
  pose proof (flat_labelled_f loss w c (regularised_reg w c Hc) (length x) (length y) h Hl [x] [y] W1 W2 eq_refl) as F.
  unfold w_value. rewrite HL. cbn [length] in *. change (tdim (batch [1%nat] (length x) [x])) with 2%nat. change (tdim (batch [1%nat] (length y) [y])) with 2%nat. cbn [Nat.ltb Nat.leb Nat.eqb andb].
  unfold vec in *. rewrite F. cbn [bind]. unfold reduce_flat. rewrite Hr. reflexivity.
Qed.
Lemma single_unlabelled d k g x : w_has_labels w = false -> w_reduce w = true -> (0 < k)%nat -> (forall x, length (g x) = k) -> rowwise loss d k g ->
  length x = d -> sample_loss (w_value loss w) x None = Ok (rmean (g x) + c).
Proof.
  intros HL Hr K Hg Hl Lx. unfold sample_loss, call_loss. cbn [option_map]. rewrite !one_row. subst d.
  assert (W1 : widths (length x) [x]) by (repeat constructor).
  pose proof (flat_unlabelled loss w c (regularised_reg w c Hc) (length x) k g Hl [x] W1) as F.
  unfold w_value. rewrite HL. cbn [length] in *. change (tdim (batch [1%nat] (length x) [x])) with 2%nat. cbn [Nat.ltb Nat.leb Nat.eqb andb].
  unfold vec in *. rewrite F. cbn [bind]. unfold reduce_flat. rewrite Hr. cbn [map].
  assert (Lg : length (map (fun a => a + c) (g x)) = k) by (rewrite map_length; apply Hg).
  assert (M : rmean (map (fun a => a + c) (g x)) = rmean (g x) + c).
  { rewrite (rmean_map_plus (fun a => a) (fun _ => c)), map_id, rmean_map_const; [reflexivity|]. intros E. specialize (Hg x). rewrite E in Hg. simpl in Hg. lia. }
  unfold mean_last, batch, trows. cbn [shp app removelast last prodl chunks map dat List.concat Nat.mul Nat.add]. rewrite app_nil_r, firstn_all2 by (unfold vec in *; lia). rewrite M. reflexivity.
Qed.
End Single.

(* ---------- the gradients ---------- *)
Section Rows.
Variable model : tensor -> option tensor -> Result tensor.
Variable D : (vec -> R) -> vec -> vec.
Hypothesis HD : differentiates D.

Lemma grad_labelled k kl L x y g gl : (forall x y, length x = k -> length y = kl -> sample_loss model x (Some y) = Ok (L x y)) -> length x = k -> length y = kl ->
  is_gradient (fun x => L x y) x g -> is_gradient (L x) y gl -> grad_func model D x (Some y) = Ok (g, Some gl).
Proof.
  intros HL Lx Ly G Gl. unfold grad_func. rewrite (HL x y Lx Ly). cbn [bind]. do 2 f_equal.
  - apply HD. apply (gradient_ext (fun x => L x y)); [|exact G]. intros z Lz. rewrite HL; [reflexivity|congruence|exact Ly].
  - f_equal. apply HD. apply (gradient_ext (L x)); [|exact Gl]. intros z Lz. rewrite HL; [reflexivity|exact Lx|congruence].
Qed.
Lemma grad_unlabelled k L x g : (forall x, length x = k -> sample_loss model x None = Ok (L x)) -> length x = k ->
  is_gradient L x g -> grad_func model D x None = Ok (g, None).
Proof.
  intros HL Lx G. unfold grad_func. rewrite (HL x Lx). cbn [bind]. do 2 f_equal. apply HD. apply (gradient_ext L); [|exact G]. intros z Lz. rewrite HL; [reflexivity|congruence].
Qed.

Lemma rows_labelled k kl L (gx gy : vec -> vec -> vec) xs ys : (forall x y, length x = k -> length y = kl -> sample_loss model x (Some y) = Ok (L x y)) ->
  Forall2 (fun x y => length x = k /\ length y = kl /\ is_gradient (fun x => L x y) x (gx x y) /\ is_gradient (L x) y (gy x y)) xs ys ->
  direction model D (batch [length xs] k xs) (Some (batch [length ys] kl ys)) = Ok (map (map Fin) (map2 gx xs ys), Some (map (map Fin) (map2 gy xs ys))).
Proof.
  intros HL F. assert (P : psg_labelled model D xs ys = Ok (map2 gx xs ys, map2 gy xs ys)).
  { induction F as [|x y xs ys (Lx & Ly & G & Gl) F IH]; [reflexivity|]. cbn [psg_labelled]. pose proof (grad_labelled k kl L x y _ _ HL Lx Ly G Gl) as Q. unfold vec in *. rewrite Q. cbn [bind]. rewrite IH. reflexivity. }
  assert (W1 : widths k xs) by (clear P; unfold widths; induction F as [|x y xs ys (Lx & Ly & G & Gl) F IH]; constructor; auto).
  assert (W2 : widths kl ys) by (clear P W1; unfold widths; induction F as [|x y xs ys (Lx & Ly & G & Gl) F IH]; constructor; auto).
  assert (E : length xs = length ys) by (clear P W1 W2; induction F; simpl; auto).
  unfold direction. cbn [option_map]. rewrite (trows_batch [length xs] k xs W1), (trows_batch [length ys] kl ys W2) by (simpl; lia).
  unfold functional_grads. unfold vec in *. rewrite E, Nat.eqb_refl, P. reflexivity.
Qed.
Lemma rows_unlabelled k L (gx : vec -> vec) xs : (forall x, length x = k -> sample_loss model x None = Ok (L x)) ->
  Forall (fun x => length x = k /\ is_gradient L x (gx x)) xs ->
  direction model D (batch [length xs] k xs) None = Ok (map (map Fin) (map gx xs), None).
Proof.
  intros HL F. assert (P : psg model D xs = Ok (map gx xs)).
  { induction F as [|x xs (Lx & G) F IH]; [reflexivity|]. cbn [psg]. pose proof (grad_unlabelled k L x _ HL Lx G) as Q. unfold vec in *. rewrite Q. cbn [bind]. rewrite IH. reflexivity. }
  assert (W1 : widths k xs) by (clear P; unfold widths; induction F as [|x xs (Lx & G) F IH]; constructor; auto).
  unfold direction. cbn [option_map]. rewrite (trows_batch [length xs] k xs W1) by (simpl; lia).
  unfold functional_grads. unfold vec in *. rewrite P. reflexivity.
Qed.
End Rows.
