(* C156: the neural-network classifier of the "moons" example. *)
From Coq Require Import Reals List Bool ZArith String Arith Lra Lia Psatz Sorted.
From Verif Require Import PyBase RList XReal CostDecoder_Model OptCond_Model Samplers_Model Wrap_Model Tensor Costs_Model Loss_Model Loss_Spec Loss_Proofs
  Estim_Model Estim_Proofs Predict_Model Predict_Proofs NeuralNet_Model.
From Verif Require Props_Estim.
Import ListNotations.
Local Open Scope R_scope.

(* ---------- spec ---------- *)
(* parameters of the shape a layer asks for; without bias the constants are absent, that is 0 *)
Definition fits (l : layer) (c : cell) : Prop :=
  match l, c with
  | Lin i o b, CLin W bs => List.length W = o /\ Forall (fun w : vec => List.length w = i) W /\ List.length bs = o /\ (b = false -> Forall (fun v => v = 0) bs)
  | Relu, CRelu => True
  | _, _ => False
  end.
Definition instance (ls : list layer) (net : list cell) : Prop := Forall2 fits ls net.
(* each layer takes what the one before it gives: d numbers in, k numbers out *)
Fixpoint chain (d : nat) (ls : list layer) (k : nat) : Prop :=
  match ls with [] => d = k | Lin i o _ :: r => i = d /\ chain o r k | Relu :: r => chain d r k end.
(* one activation per hidden layer, and the sizes the linear layers give *)
Definition activations (ls : list layer) : nat := List.length (filter (fun l => match l with Relu => true | Lin _ _ _ => false end) ls).
Definition sizes (ls : list layer) : list nat := flat_map (fun l => match l with Lin _ o _ => [o] | Relu => [] end) ls.
(* product over the linear layers of the sums of the squared weights *)
Fixpoint gain (net : list cell) : R :=
  match net with [] => 1 | CLin W _ :: r => rsum (map sqnorm W) * gain r | CRelu :: r => gain r end.

(* ---------- the layers ---------- *)
Lemma concat_repeat_S {A} (l : list A) n : List.concat (repeat l (S n)) = (List.concat (repeat l n) ++ l)%list.
Proof. induction n as [|n IH]; [simpl; rewrite app_nil_r; reflexivity|]. change (repeat l (S (S n))) with (l :: repeat l (S n)). cbn [List.concat]. rewrite IH at 1. change (repeat l (S n)) with (l :: repeat l n). cbn [List.concat]. rewrite app_assoc. reflexivity. Qed.

Lemma alternate {A} (a b : A) n : map (fun i => if (i mod 2 =? 0)%nat then a else b) (seq 0 (2 * n)) = List.concat (repeat [a; b] n).
Proof.
  induction n as [|n IH]; [reflexivity|]. replace (2 * S n)%nat with (2 * n + 2)%nat by lia. rewrite seq_app, map_app, IH, concat_repeat_S. f_equal.
  cbn [seq map Nat.add]. replace ((2 * n) mod 2)%nat with 0%nat by (symmetry; rewrite Nat.mul_comm; apply Nat.mod_mul; lia).
  replace (S (2 * n) mod 2)%nat with 1%nat by (replace (S (2 * n)) with (1 + n * 2)%nat by lia; rewrite Nat.mod_add by lia; reflexivity). reflexivity.
Qed.

Lemma layers_shape d h n b : nn_layers d h (Z.of_nat n) b = ([Lin d h b; Relu] ++ List.concat (repeat [Lin h h b; Relu] n) ++ [Lin h 1 b])%list.
Proof. unfold nn_layers. replace (Z.to_nat (2 * Z.of_nat n)) with (2 * n)%nat by lia. rewrite alternate. reflexivity. Qed.

Lemma sizes_app l m : sizes (l ++ m) = (sizes l ++ sizes m)%list.
Proof. apply flat_map_app. Qed.
Lemma activations_app l m : activations (l ++ m) = (activations l + activations m)%nat.
Proof. unfold activations. rewrite filter_app, app_length. reflexivity. Qed.
Lemma chain_app d l k m k' : chain d l k -> chain k m k' -> chain d (l ++ m) k'.
Proof. revert d. induction l as [|[i o b|] l IH]; simpl; intros d H M; [subst; exact M| |apply IH; assumption]. destruct H as [-> H]. split; [reflexivity|]. apply IH; assumption. Qed.

Lemma block_sizes h b n : sizes (List.concat (repeat [Lin h h b; Relu] n)) = repeat h n.
Proof. induction n as [|n IH]; [reflexivity|]. cbn [repeat List.concat]. rewrite sizes_app, IH. reflexivity. Qed.
Lemma block_activations h b n : activations (List.concat (repeat [Lin h h b; Relu] n)) = n.
Proof. induction n as [|n IH]; [reflexivity|]. cbn [repeat List.concat]. rewrite activations_app, IH. reflexivity. Qed.
Lemma block_chain h b n : chain h (List.concat (repeat [Lin h h b; Relu] n)) h.
Proof. induction n as [|n IH]; [reflexivity|]. simpl. split; [reflexivity|exact IH]. Qed.

Theorem C156_depth :
  forall d h n b, (0 < n)%Z ->
    activations (nn_layers d h n b) = S (Z.to_nat n) /\ sizes (nn_layers d h n b) = (repeat h (S (Z.to_nat n)) ++ [1%nat])%list /\ chain d (nn_layers d h n b) 1.
Proof.
  intros d h n b Hn. destruct (Z_of_nat_complete n ltac:(lia)) as [k ->]. rewrite !layers_shape, !Nat2Z.id.
  split; [|split].
  - rewrite !activations_app, block_activations. unfold activations. simpl. lia.
  - rewrite !sizes_app, block_sizes. reflexivity.
  - simpl. split; [reflexivity|]. apply chain_app with h; [apply block_chain|]. simpl. split; reflexivity.
Qed.
Print Assumptions C156_depth.
Example C156_depth_case : nn_layers 2 3 2 true = [Lin 2 3 true; Relu; Lin 3 3 true; Relu; Lin 3 3 true; Relu; Lin 3 1 true].
Proof. reflexivity. Qed.

(* "By default, it contains only 1 hidden layer of 32 neurons": there are two. *)
Theorem C156_documented_depth_refuted :
  exists a, nn_init nn_defaults = Ok a /\
    let ls := nn_layers 2 (nn_neurons a) (nn_hidden a) (nn_fit_intercept a) in
    activations ls <> 1%nat /\ sizes ls <> [32%nat; 1%nat] /\ sizes ls = [32%nat; 32%nat; 1%nat].
Proof.
  exists nn_defaults. split.
  - unfold nn_init. simpl. unfold Rltb. destruct (Rlt_dec (1 / 100) 0); [lra|reflexivity].
  - vm_compute. repeat split; discriminate.
Qed.
Print Assumptions C156_documented_depth_refuted.

(* The extra layer matters: with one neuron it gives a function no network with the documented single hidden layer gives. *)
Definition step_net : list cell := [CLin [[1]] [0]; CRelu; CLin [[-1]] [1]; CRelu; CLin [[1]] [0]].
Lemma step_net_fits : instance (nn_layers 1 1 1 true) step_net.
Proof. unfold instance, step_net. change (nn_layers 1 1 1 true) with [Lin 1 1 true; Relu; Lin 1 1 true; Relu; Lin 1 1 true]. repeat (apply Forall2_cons || apply Forall2_nil); simpl; repeat split; try discriminate; repeat constructor. Qed.
Lemma step_net_out x : net_out step_net [x] = Rmax (1 - Rmax x 0) 0.
Proof.
  unfold net_out, net_forward, step_net. simpl. unfold dot. simpl.
  replace (Rmax ((x * 1 + 0) + 0) 0) with (Rmax x 0) by (f_equal; ring).
  replace (Rmax ((Rmax x 0 * -1 + 0) + 1) 0) with (Rmax (1 - Rmax x 0) 0) by (f_equal; ring). ring.
Qed.

Theorem C156_extra_layer :
  exists net, instance (nn_layers 1 1 1 true) net /\
    forall small, instance [Lin 1 1 true; Relu; Lin 1 1 true] small -> exists x, net_out net [x] <> net_out small [x].
Proof.
  exists step_net. split; [exact step_net_fits|]. intros small H.
  inversion H as [|l1 c1 r1 s1 F1 H1]; subst. inversion H1 as [|l2 c2 r2 s2 F2 H2]; subst. inversion H2 as [|l3 c3 r3 s3 F3 H3]; subst. inversion H3; subst. clear H H1 H2 H3.
  destruct c1 as [W1 b1|]; [|destruct F1]. destruct c2 as [|]; [destruct F2|]. destruct c3 as [W3 b3|]; [|destruct F3].
  simpl in F1, F3. destruct F1 as (L1 & A1 & B1 & _), F3 as (L3 & A3 & B3 & _).
  destruct W1 as [|w1 [|]]; try discriminate. destruct b1 as [|b1 [|]]; try discriminate. destruct W3 as [|w3 [|]]; try discriminate. destruct b3 as [|b3 [|]]; try discriminate.
  apply Forall_inv in A1. apply Forall_inv in A3. destruct w1 as [|a [|]]; try discriminate. destruct w3 as [|c [|]]; try discriminate.
  assert (O : forall x, net_out [CLin [[a]] [b1]; CRelu; CLin [[c]] [b3]] [x] = c * Rmax (a * x + b1) 0 + b3).
  { intros x. unfold net_out, net_forward. simpl. unfold dot. simpl. replace (x * a + 0 + b1) with (a * x + b1) by ring. ring. }
  assert (P : forall x, step_net <> [] -> net_out step_net [x] = Rmax (1 - Rmax x 0) 0) by (intros x _; apply step_net_out).
  assert (V : net_out step_net [-1] = 1 /\ net_out step_net [0] = 1 /\ net_out step_net [1] = 0 /\ net_out step_net [2] = 0).
  { rewrite !step_net_out. unfold Rmax. repeat destruct (Rle_dec _ _); lra. }
  destruct V as (V1 & V2 & V3 & V4).
  destruct (Req_dec (net_out step_net [-1]) (net_out [CLin [[a]] [b1]; CRelu; CLin [[c]] [b3]] [-1])) as [E1|]; [|exists (-1); assumption].
  destruct (Req_dec (net_out step_net [0]) (net_out [CLin [[a]] [b1]; CRelu; CLin [[c]] [b3]] [0])) as [E2|]; [|exists 0; assumption].
  destruct (Req_dec (net_out step_net [1]) (net_out [CLin [[a]] [b1]; CRelu; CLin [[c]] [b3]] [1])) as [E3|]; [|exists 1; assumption].
  destruct (Req_dec (net_out step_net [2]) (net_out [CLin [[a]] [b1]; CRelu; CLin [[c]] [b3]] [2])) as [E4|]; [|exists 2; assumption].
  exfalso. rewrite V1, O in E1. rewrite V2, O in E2. rewrite V3, O in E3. rewrite V4, O in E4.
  set (r1 := Rmax (a * -1 + b1) 0) in *. set (r2 := Rmax (a * 0 + b1) 0) in *. set (r3 := Rmax (a * 1 + b1) 0) in *. set (r4 := Rmax (a * 2 + b1) 0) in *.
  assert (K1 : 0 <= r1 + r3 - 2 * r2) by (unfold r1, r2, r3, Rmax; repeat destruct (Rle_dec _ _); lra).
  assert (K2 : 0 <= r2 + r4 - 2 * r3) by (unfold r2, r3, r4, Rmax; repeat destruct (Rle_dec _ _); lra).
  destruct (Rle_dec 0 c) as [Hc|Hc].
  - assert (0 <= c * (r1 + r3 - 2 * r2)) by (apply Rmult_le_pos; assumption). lra.
  - assert (0 <= (- c) * (r2 + r4 - 2 * r3)) by (apply Rmult_le_pos; lra). lra.
Qed.
Print Assumptions C156_extra_layer.
Example C156_extra_layer_case : instance [Lin 1 1 true; Relu; Lin 1 1 true] [CLin [[2]] [1]; CRelu; CLin [[-1]] [3]] /\ net_out step_net [1 / 2] = 1 / 2.
Proof.
  split; [unfold instance; repeat (apply Forall2_cons || apply Forall2_nil); simpl; repeat split; try discriminate; repeat constructor|].
  rewrite step_net_out. unfold Rmax. repeat destruct (Rle_dec _ _); lra.
Qed.

(* ---------- what a fitted network gives ---------- *)
Lemma cell_length l c d x k : fits l c -> List.length x = d -> chain d [l] k -> List.length (cell_forward c x) = k.
Proof.
  destruct l as [i o b|]; destruct c as [W bs|]; simpl; intros F L H; try (destruct F; fail).
  - destruct F as (L1 & _ & L2 & _), H as [_ H]. rewrite map2_length; congruence.
  - rewrite map_length. congruence.
Qed.
Lemma forward_length ls net : instance ls net -> forall d k x, chain d ls k -> List.length x = d -> List.length (net_forward net x) = k.
Proof.
  induction 1 as [|l c ls net F I IH]; intros d k x C L; [simpl in *; congruence|]. unfold net_forward. simpl. fold (net_forward net (cell_forward c x)).
  destruct l as [i o b|]; simpl in C.
  - destruct C as [-> C]. apply (IH o k); [exact C|]. apply (cell_length (Lin d o b) c d); simpl; auto.
  - apply (IH d k); [exact C|]. apply (cell_length Relu c d); simpl; auto.
Qed.

Theorem C156_one_output :
  forall d h n b net x, (0 < n)%Z -> instance (nn_layers d h n b) net -> List.length x = d -> net_forward net x = [net_out net x].
Proof.
  intros d h n b net x Hn I L. destruct (C156_depth d h n b Hn) as (_ & _ & C). pose proof (forward_length _ _ I d 1%nat x C L) as E.
  unfold net_out. destruct (net_forward net x) as [|v [|]]; try discriminate. reflexivity.
Qed.
Print Assumptions C156_one_output.
Example C156_one_output_case : net_forward step_net [3] = [0].
Proof. rewrite (C156_one_output 1 1 1 true step_net [3]); [|lia|apply step_net_fits|reflexivity]. rewrite step_net_out. f_equal. unfold Rmax. repeat destruct (Rle_dec _ _); lra. Qed.

Lemma Rleb_half s : Rleb (1 / 2) (expit s) = if Rle_dec 0 s then true else false.
Proof. unfold Rleb. destruct (Rle_dec (1 / 2) (expit s)) as [H|H]; destruct (Rle_dec 0 s) as [K|K]; try reflexivity; exfalso; [apply K, expit_half, H|apply H, expit_half, K]. Qed.

Theorem C156_predict :
  forall net c0 c1 X, nn_predict net [c0; c1] X = map (fun x => if Rle_dec 0 (net_out net x) then c1 else c0) X.
Proof. intros net c0 c1 X. unfold nn_predict, nn_proba. rewrite map_map. apply map_ext. intros x. rewrite Rleb_half. destruct (Rle_dec 0 (net_out net x)); reflexivity. Qed.
Print Assumptions C156_predict.
Example C156_predict_case : nn_predict [CLin [[1]] [-1]] [0; 1]%Z [[0]; [1]; [2]] = [0; 1; 1]%Z.
Proof. rewrite C156_predict. unfold net_out, net_forward. simpl. unfold dot. simpl. repeat destruct (Rle_dec _ _); try reflexivity; exfalso; lra. Qed.

Theorem C156_probas :
  forall net X, Forall2 (fun x row => List.length row = 2%nat /\ rsum row = 1 /\ (forall p, In p row -> 0 < p < 1) /\ nth 1 row 0 = expit (net_out net x)) X (nn_probas net X).
Proof.
  intros net X. unfold nn_probas, nn_proba. rewrite map_map. induction X as [|x X IH]; simpl; constructor; [|exact IH].
  pose proof (expit_range (net_out net x)). split; [reflexivity|]. split; [simpl; ring|]. split; [|reflexivity]. simpl. intros p [<-|[<-|[]]]; lra.
Qed.
Print Assumptions C156_probas.
Example C156_probas_case : nn_probas [CLin [[1]] [0]] [[0]] = [[1 / 2; 1 / 2]].
Proof.
  assert (E : net_out [CLin [[1]] [0]] [0] = 0) by (unfold net_out, net_forward; simpl; unfold dot; simpl; ring).
  unfold nn_probas, nn_proba. cbn [map]. rewrite E. unfold expit. rewrite Ropp_0, exp_0. replace (1 / (1 + 1)) with (1 / 2) by field. replace (1 - 1 / 2) with (1 / 2) by field. reflexivity.
Qed.

(* ---------- the hand-over ---------- *)
Definition as_logistic (a : nn_args) : lg_args :=
  {| lg_rho := nn_rho a; lg_l2_reg := nn_l2_reg a; lg_fit_intercept := nn_fit_intercept a; lg_cost := nn_cost a; lg_solver_name := nn_solver a;
     lg_solver_reg := nn_solver_reg a; lg_sampler_reg := nn_sampler_reg a; lg_lr := nn_lr a; lg_n_zeta := nn_n_zeta a; lg_seed := nn_seed a; lg_n_iter := None |}.

(* "Almost a 1-to-1 copy of LogisticRegression": on two classes it hands over what LogisticRegression hands over, but for the numbers of steps,
   the network, and the specialised solver. *)
Theorem C156_copy :
  forall pf a X y c0 c1, (c0 < c1)%Z -> (forall v, In v y <-> v = c0 \/ v = c1) ->
    nn_dispatch pf a X y =
    match lg_dispatch pf (as_logistic a) X y with
    | Ok (FTorch d _) => Ok (set_n_iter (SPair 50 200) d, nn_layers (width X) (nn_neurons a) (nn_hidden a) (nn_fit_intercept a))
    | Ok FDedicated => Raise NotImplementedError
    | Raise e => Raise e
    end.
Proof.
  intros pf a X y c0 c1 L H.
  assert (U : unique_labels y = [c0; c1]).
  { apply unique_of; [constructor; [repeat constructor|]; repeat constructor; exact L|]. intros v. rewrite H. simpl. intuition. }
  unfold nn_dispatch, lg_dispatch. destruct (lg_targets y) as [t|e]; cbn [bind]; [|reflexivity].
  change (lg_cost (as_logistic a)) with (nn_cost a). destruct (decode_cost pf (nn_cost a)) as [c|e]; cbn [bind]; [|reflexivity].
  change (lg_solver_name (as_logistic a)) with (nn_solver a). rewrite U. cbn [List.length Nat.eqb Nat.ltb Nat.leb negb].
  destruct (String.eqb (nn_solver a) "entropic"); [reflexivity|].
  destruct (String.eqb (nn_solver a) "dedicated") eqn:D.
  - apply String.eqb_eq in D. rewrite D. reflexivity.
  - destruct (contains "torch" (nn_solver a)); [|reflexivity].
    destruct (dualize pf _) as [d|e]; reflexivity.
Qed.
Print Assumptions C156_copy.

Theorem C156_two_classes :
  forall pf a X y r, nn_dispatch pf a X y = Ok r -> exists c0 c1, (c0 < c1)%Z /\ (forall v, In v y <-> v = c0 \/ v = c1) /\ contains "torch" (nn_solver a) = true.
Proof.
  intros pf a X y r E. unfold nn_dispatch in E. destruct (lg_targets y) as [t|]; cbn [bind] in E; [|discriminate]. destruct (decode_cost pf (nn_cost a)); cbn [bind] in E; [|discriminate].
  destruct (String.eqb (nn_solver a) "entropic"); [discriminate|]. destruct (contains "torch" (nn_solver a)); [|discriminate].
  destruct (List.length (unique_labels y) =? 2)%nat eqn:K; [|discriminate]. apply Nat.eqb_eq in K.
  pose proof (unique_sorted y) as S. pose proof (unique_in y) as I. destruct (unique_labels y) as [|c0 [|c1 [|]]]; try discriminate.
  exists c0, c1. split; [|split; [|reflexivity]].
  - inversion S as [|? ? _ F]; subst. apply Forall_inv in F. exact F.
  - intros v. rewrite <- I. simpl. intuition.
Qed.
Print Assumptions C156_two_classes.

Theorem C156_refused :
  forall pf a X y c, decode_cost pf (nn_cost a) = Ok c ->
    ((List.length (unique_labels y) < 2)%nat -> nn_dispatch pf a X y = Raise ValueError) /\
    ((2 < List.length (unique_labels y))%nat -> contains "torch" (nn_solver a) = true -> nn_dispatch pf a X y = Raise AssertionError) /\
    ((2 <= List.length (unique_labels y))%nat -> nn_solver a = "dedicated"%string -> nn_dispatch pf a X y = Raise NotImplementedError) /\
    ((2 <= List.length (unique_labels y))%nat -> nn_solver a = "entropic"%string -> nn_dispatch pf a X y = Raise DeprecationWarning).
Proof.
  intros pf a X y c E. unfold nn_dispatch.
  assert (T : (2 <= List.length (unique_labels y))%nat -> exists t, lg_targets y = Ok t).
  { intros H. destruct (List.length (unique_labels y) =? 2)%nat eqn:K.
    - apply Nat.eqb_eq in K. destruct (unique_labels y) as [|c0 [|c1 [|]]] eqn:U; try discriminate. eexists. apply (targets_two y c0 c1). exact U.
    - apply Nat.eqb_neq in K. eexists. apply targets_many. lia. }
  repeat split.
  - intros H. rewrite targets_few by lia. reflexivity.
  - intros H S. destruct (T ltac:(lia)) as [t ->]. cbn [bind]. rewrite E. cbn [bind].
    destruct (String.eqb (nn_solver a) "entropic") eqn:D; [apply String.eqb_eq in D; rewrite D in S; discriminate|]. rewrite S.
    replace (List.length (unique_labels y) =? 2)%nat with false by (symmetry; apply Nat.eqb_neq; lia). reflexivity.
  - intros H S. destruct (T H) as [t ->]. cbn [bind]. rewrite E. cbn [bind]. rewrite S. reflexivity.
  - intros H S. destruct (T H) as [t ->]. cbn [bind]. rewrite E. cbn [bind]. rewrite S. reflexivity.
Qed.
Print Assumptions C156_refused.

Theorem C156_constructor :
  forall a, nn_init a = (if Rlt_dec (nn_rho a) 0 then Raise ValueError else if Z_lt_dec 0 (nn_hidden a) then Ok a else Raise AssertionError).
Proof.
  intros a. unfold nn_init, Rltb. destruct (Rlt_dec (nn_rho a) 0); [reflexivity|]. destruct (Z_lt_dec 0 (nn_hidden a)) as [H|H].
  - apply Z.ltb_lt in H. rewrite H. reflexivity.
  - apply Z.ltb_nlt in H. rewrite H. reflexivity.
Qed.
Print Assumptions C156_constructor.

(* ---------- without intercept ---------- *)
Lemma relu_scal t a : 0 <= t -> Rmax (t * a) 0 = t * Rmax a 0.
Proof.
  intros Ht. unfold Rmax. destruct (Rle_dec (t * a) 0) as [H|H]; destruct (Rle_dec a 0) as [K|K]; try ring.
  - assert (0 <= t * a) by (apply Rmult_le_pos; lra). lra.
  - exfalso. apply H. assert (0 <= t * - a) by (apply Rmult_le_pos; lra). lra.
Qed.
Definition no_bias (l : layer) : Prop := match l with Lin _ _ b => b = false | Relu => True end.
Lemma cell_scal l c t x : 0 <= t -> no_bias l -> fits l c -> cell_forward c (vscal t x) = vscal t (cell_forward c x).
Proof.
  intros Ht N F. destruct l as [i o b|]; destruct c as [W bs|]; simpl in *; try (destruct F; fail).
  - destruct F as (_ & _ & _ & B). specialize (B N). clear -B. revert bs B. induction W as [|w W IH]; intros [|v bs] B; simpl; try reflexivity.
    inversion B; subst. rewrite IH by assumption. unfold vscal at 3. simpl. rewrite dot_vscal_l. f_equal. ring.
  - unfold vscal. rewrite !map_map. apply map_ext. intros a. apply relu_scal. exact Ht.
Qed.
Lemma net_scal ls net : instance ls net -> Forall no_bias ls -> forall t x, 0 <= t -> net_forward net (vscal t x) = vscal t (net_forward net x).
Proof.
  induction 1 as [|l c ls net F I IH]; intros N t x Ht; [reflexivity|]. inversion N; subst. unfold net_forward in *. simpl.
  rewrite (cell_scal l) by assumption. apply IH; assumption.
Qed.
Lemma layers_no_bias d h n : Forall no_bias (nn_layers d h n false).
Proof.
  unfold nn_layers. constructor; [reflexivity|]. constructor; [exact I|]. apply Forall_app. split; [|constructor; [reflexivity|constructor]].
  apply Forall_forall. intros l H. apply in_map_iff in H. destruct H as (i & <- & _). destruct (i mod 2 =? 0)%nat; simpl; auto.
Qed.

Theorem C156_homogeneous :
  forall d h n net t x, instance (nn_layers d h n false) net -> 0 <= t -> net_out net (vscal t x) = t * net_out net x.
Proof.
  intros d h n net t x I Ht. unfold net_out. rewrite (net_scal _ _ I (layers_no_bias d h n)) by exact Ht. destruct (net_forward net x); simpl; ring.
Qed.
Print Assumptions C156_homogeneous.

Theorem C156_rays :
  forall d h n net t x c0 c1, instance (nn_layers d h n false) net -> 0 < t ->
    nn_predict net [c0; c1] [vscal t x] = nn_predict net [c0; c1] [x] /\ nn_predict net [c0; c1] [vscal 0 x] = [c1] /\ nn_proba net [vscal 0 x] = [1 / 2].
Proof.
  intros d h n net t x c0 c1 I Ht. rewrite !C156_predict. cbn [map]. rewrite !(C156_homogeneous d h n net) by (assumption || lra). split; [|split].
  - destruct (Rle_dec 0 (t * net_out net x)) as [H|H]; destruct (Rle_dec 0 (net_out net x)) as [K|K]; try reflexivity; exfalso.
    + apply K. apply Rmult_le_reg_l with t; lra.
    + apply H. apply Rmult_le_pos; lra.
  - destruct (Rle_dec 0 (0 * net_out net x)); [reflexivity|lra].
  - unfold nn_proba. cbn [map]. rewrite (C156_homogeneous d h n net) by (assumption || lra). f_equal. unfold expit. replace (- (0 * net_out net x)) with 0 by ring. rewrite exp_0. field.
Qed.
Print Assumptions C156_rays.
Definition flat_net : list cell := [CLin [[1]] [0]; CRelu; CLin [[1]] [0]; CRelu; CLin [[-1]] [0]].
Example C156_rays_case : instance (nn_layers 1 1 1 false) flat_net /\ nn_predict flat_net [4; 7]%Z [[2]; [6]; [0]; [-1]] = [4; 4; 7; 7]%Z.
Proof.
  split.
  - unfold instance, flat_net. change (nn_layers 1 1 1 false) with [Lin 1 1 false; Relu; Lin 1 1 false; Relu; Lin 1 1 false]. repeat (apply Forall2_cons || apply Forall2_nil); simpl; repeat split; repeat constructor.
  - rewrite C156_predict. unfold net_out, net_forward. simpl. unfold dot. simpl. unfold Rmax. repeat destruct (Rle_dec _ _); try reflexivity; exfalso; lra.
Qed.

(* With an intercept the rays are not tied: one network separates two points of one ray. *)
Theorem C156_intercept_needed :
  exists net x t, instance (nn_layers 1 1 1 true) net /\ 0 < t /\ nn_predict net [0; 1]%Z [x; vscal t x] = [1; 0]%Z.
Proof.
  exists [CLin [[1]] [0]; CRelu; CLin [[-1]] [1]; CRelu; CLin [[1]] [- (1 / 4)]], [1 / 2], 4. split; [|split; [lra|]].
  - unfold instance. change (nn_layers 1 1 1 true) with [Lin 1 1 true; Relu; Lin 1 1 true; Relu; Lin 1 1 true]. repeat (apply Forall2_cons || apply Forall2_nil); simpl; repeat split; try discriminate; repeat constructor.
  - rewrite C156_predict. unfold net_out, net_forward. simpl. unfold dot. simpl. unfold Rmax. repeat destruct (Rle_dec _ _); try reflexivity; exfalso; lra.
Qed.
Print Assumptions C156_intercept_needed.

(* ---------- how far the output can move ---------- *)
Lemma sqnorm_cons a (x : vec) : sqnorm (a :: x) = a * a + sqnorm x.
Proof. reflexivity. Qed.
Lemma gain_nonneg net : 0 <= gain net.
Proof.
  induction net as [|[W b|] net IH]; simpl; [lra| |exact IH]. apply Rmult_le_pos; [|exact IH]. apply rsum_map_nonneg. intros w _. apply sqnorm_nonneg.
Qed.
Lemma lin_lip d (W : list vec) : Forall (fun w : vec => List.length w = d) W -> forall bs x y, List.length x = d -> List.length y = d ->
  sqnorm (vsub (map2 (fun w b => dot x w + b) W bs) (map2 (fun w b => dot y w + b) W bs)) <= rsum (map sqnorm W) * sqnorm (vsub x y).
Proof.
  induction 1 as [|w W Hw F IH]; intros bs x y Lx Ly.
  - simpl. unfold sqnorm at 1, dot, vsub. simpl. lra.
  - destruct bs as [|b bs].
    + change (sqnorm (vsub (map2 (fun u e => dot x u + e) (w :: W) []) (map2 (fun u e => dot y u + e) (w :: W) []))) with 0.
      apply Rmult_le_pos; [|apply sqnorm_nonneg]. apply rsum_map_nonneg. intros v _. apply sqnorm_nonneg.
    + simpl map2. unfold vsub at 1. simpl map2. rewrite sqnorm_cons. fold (vsub (map2 (fun w b => dot x w + b) W bs) (map2 (fun w b => dot y w + b) W bs)).
      specialize (IH bs x y Lx Ly). simpl map. simpl rsum.
      assert (D : dot x w + b - (dot y w + b) = dot (vsub x y) w) by (rewrite dot_vsub_l by congruence; ring). rewrite D.
      pose proof (cauchy_schwarz_sq (vsub x y) w ltac:(rewrite vsub_length; congruence)). lra.
Qed.
Lemma relu_lip1 a b : (Rmax a 0 - Rmax b 0) * (Rmax a 0 - Rmax b 0) <= (a - b) * (a - b).
Proof. pose proof (Rle_0_sqr (a - b)). pose proof (Rle_0_sqr a). pose proof (Rle_0_sqr b). unfold Rsqr, Rmax in *. destruct (Rle_dec a 0) as [A|A]; destruct (Rle_dec b 0) as [B|B]; try (apply Rnot_le_lt in A); try (apply Rnot_le_lt in B); nra. Qed.
Lemma relu_lip : forall x y : vec, List.length x = List.length y -> sqnorm (vsub (map (fun a => Rmax a 0) x) (map (fun a => Rmax a 0) y)) <= sqnorm (vsub x y).
Proof.
  induction x as [|a x IH]; intros [|b y] L; try discriminate; [apply Rle_refl|]. unfold vsub. simpl map. simpl map2. rewrite !sqnorm_cons.
  injection L as L. specialize (IH y L). unfold vsub in IH. pose proof (relu_lip1 a b). lra.
Qed.
Lemma net_lip ls net : instance ls net -> forall d k x y, chain d ls k -> List.length x = d -> List.length y = d ->
  sqnorm (vsub (net_forward net x) (net_forward net y)) <= gain net * sqnorm (vsub x y).
Proof.
  induction 1 as [|l c ls net F I IH]; intros d k x y C Lx Ly; [simpl; lra|]. unfold net_forward. simpl fold_left.
  fold (net_forward net (cell_forward c x)). fold (net_forward net (cell_forward c y)).
  destruct l as [i o b|]; destruct c as [W bs|]; simpl in F; try (destruct F; fail); simpl in C.
  - destruct C as [-> C]. assert (F0 : fits (Lin d o b) (CLin W bs)) by exact F. destruct F as (L1 & FW & L2 & _).
    eapply Rle_trans; [apply (IH o k); [exact C| |]|].
    + apply (cell_length (Lin d o b) (CLin W bs) d); simpl; auto.
    + apply (cell_length (Lin d o b) (CLin W bs) d); simpl; auto.
    + simpl gain. pose proof (lin_lip d W FW bs x y Lx Ly) as H. simpl cell_forward.
      apply Rmult_le_compat_l with (r := gain net) in H; [|apply gain_nonneg]. eapply Rle_trans; [exact H|]. right. ring.
  - eapply Rle_trans; [apply (IH d k); [exact C| |]|]; try (simpl; rewrite map_length; assumption).
    simpl gain. apply Rmult_le_compat_l; [apply gain_nonneg|]. simpl cell_forward. apply relu_lip. congruence.
Qed.

(* The output moves at most by the product of the Frobenius norms of the weights times the move of the input. *)
Theorem C156_lipschitz :
  forall d h n b net x y, (0 < n)%Z -> instance (nn_layers d h n b) net -> List.length x = d -> List.length y = d ->
    (net_out net x - net_out net y)² <= gain net * sqnorm (vsub x y).
Proof.
  intros d h n b net x y Hn I Lx Ly. destruct (C156_depth d h n b Hn) as (_ & _ & C). pose proof (net_lip _ _ I d 1%nat x y C Lx Ly) as H.
  rewrite (C156_one_output d h n b net x Hn I Lx), (C156_one_output d h n b net y Hn I Ly) in H.
  unfold vsub at 1 in H. simpl map2 in H. rewrite sqnorm_cons in H. unfold sqnorm at 1, dot at 1 in H. simpl in H. unfold Rsqr. lra.
Qed.
Print Assumptions C156_lipschitz.

(* So a prediction is certified: no move of the input shorter than |output| / (product of the norms) changes the class. *)
Theorem C156_certified :
  forall d h n b net x y c0 c1, (0 < n)%Z -> instance (nn_layers d h n b) net -> List.length x = d -> List.length y = d ->
    gain net * sqnorm (vsub x y) < (net_out net x)² -> nn_predict net [c0; c1] [y] = nn_predict net [c0; c1] [x].
Proof.
  intros d h n b net x y c0 c1 Hn I Lx Ly H. pose proof (C156_lipschitz d h n b net x y Hn I Lx Ly) as K. rewrite !C156_predict. cbn [map]. unfold Rsqr in *.
  destruct (Rle_dec 0 (net_out net x)) as [P|P]; destruct (Rle_dec 0 (net_out net y)) as [Q|Q]; try reflexivity; exfalso; try (apply Rnot_le_lt in P); try (apply Rnot_le_lt in Q); nra.
Qed.
Print Assumptions C156_certified.
Example C156_certified_case :
  gain step_net = 1 /\ nn_predict step_net [0; 1]%Z [[0]; [1 / 2]] = [1; 1]%Z /\ gain step_net * sqnorm (vsub [0] [1 / 2]) < (net_out step_net [0])².
Proof.
  assert (G : gain step_net = 1) by (unfold gain, step_net, sqnorm, dot; simpl; ring). split; [exact G|]. split.
  - rewrite C156_predict. cbn [map]. rewrite !step_net_out. unfold Rmax. repeat destruct (Rle_dec _ _); try reflexivity; exfalso; lra.
  - rewrite G, step_net_out. unfold sqnorm, dot, vsub, Rsqr. simpl. unfold Rmax. repeat destruct (Rle_dec _ _); lra.
Qed.

(* The defaults reach the solver on every two-class dataset, with the steps 50 and 200. *)
Theorem C156_defaults :
  forall pf X y c0 c1, pf "1"%string = Some (Fin 1) -> pf "2"%string = Some (Fin 2) -> (c0 < c1)%Z -> (forall v, In v y <-> v = c0 \/ v = c1) ->
    exists d, nn_dispatch pf nn_defaults X y = Ok (d, [Lin (width X) 32 true; Relu; Lin 32 32 true; Relu; Lin 32 1 true]) /\
      a_post d = true /\ a_n_iter d = SPair 50 200 /\ a_n_samples d = 10%Z.
Proof.
  intros pf X y c0 c1 E1 E2 L H. destruct (Props_Estim.C57_weber_linear_logistic_portfolio pf X E1 E2) as (_ & _ & G & _).
  destruct (G y) as (d & k & E & P & _).
  { exists c0, c1. rewrite !H. repeat split; auto. lia. }
  exists (set_n_iter (SPair 50 200) d). rewrite (C156_copy pf nn_defaults X y c0 c1 L H). change (as_logistic nn_defaults) with lg_defaults. rewrite E.
  split; [reflexivity|]. split; [exact P|]. split; [reflexivity|].
  unfold lg_dispatch in E. destruct (lg_targets y) as [t|]; cbn [bind] in E; [|discriminate]. destruct (decode_cost pf (lg_cost lg_defaults)); cbn [bind] in E; [|discriminate].
  cbn [lg_solver_name lg_defaults] in E. change (String.eqb "entropic_torch" "entropic") with false in E. change (String.eqb "entropic_torch" "dedicated") with false in E. change (contains "torch" "entropic_torch") with true in E. cbv iota in E.
  match type of E with context [dualize pf ?u] => destruct (dualize pf u) as [d'|] eqn:D; cbn [bind] in E; [|discriminate] end. injection E as -> _.
  apply dualize_fields in D. cbn [set_n_iter a_n_samples]. destruct D as (_ & _ & _ & _ & _ & _ & D & _). rewrite D. reflexivity.
Qed.
Print Assumptions C156_defaults.
Example C156_defaults_case :
  exists d, nn_dispatch Props_Estim.read nn_defaults [[0; 1]; [1; 0]; [2; 2]] [3; 5; 3]%Z = Ok (d, [Lin 2 32 true; Relu; Lin 32 32 true; Relu; Lin 32 1 true]) /\
    a_post d = true /\ a_n_iter d = SPair 50 200 /\ a_n_samples d = 10%Z.
Proof. apply (C156_defaults Props_Estim.read [[0; 1]; [1; 0]; [2; 2]] [3; 5; 3]%Z 3 5 eq_refl eq_refl); [lia|]. intros v. simpl. intuition lia. Qed.
(* three classes of the same data are refused *)
Example C156_refused_case : nn_dispatch Props_Estim.read nn_defaults [[0; 1]; [1; 0]; [2; 2]] [3; 5; 4]%Z = Raise AssertionError.
Proof.
  destruct (decode_22 Props_Estim.read eq_refl) as [c Hc].
  apply (C156_refused Props_Estim.read nn_defaults [[0; 1]; [1; 0]; [2; 2]] [3; 5; 4]%Z c Hc); [simpl; lia|reflexivity].
Qed.
