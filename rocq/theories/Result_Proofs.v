From Coq Require Import List Bool String Arith Lia.
From Verif Require Import PyBase Result_Model.
Import ListNotations.
Open Scope string_scope.
Open Scope list_scope.

Section R.
Variable V : Type.
Variable none : V.

(* the component of a tuple that an attribute names (None when the tuple has no such component) *)
Definition component (l : list V) (k : string) : option V :=
  match l, k with
  | [a], "coef" => Some a
  | [a; _], "coef" => Some a | [_; b], "dual_var" => Some b
  | [a; _; _], "coef" => Some a | [_; b; _], "intercept" => Some b | [_; _; c], "dual_var" => Some c
  | [a; _; _; _], "coef" => Some a | [_; b; _; _], "intercept" => Some b
  | [_; _; c; _], "dual_var" => Some c | [_; _; _; d], "robust_loss" => Some d
  | _, _ => None
  end.

Lemma tuple_roundtrip l : 1 <= List.length l <= 4 ->
  exists r view, wrap none (LTuple l) = Ok (r, view) /\ iterate r view = Ok l /\
    getattr r "coef" = Ok (match component l "coef" with Some v => v | None => none end) /\
    getattr r "intercept" = Ok (match component l "intercept" with Some v => v | None => none end) /\
    getattr r "dual_var" = Ok (match component l "dual_var" with Some v => v | None => none end) /\
    getattr r "robust_loss" = Ok (match component l "robust_loss" with Some v => v | None => none end).
Proof.
  intros H. destruct l as [|a [|b [|c [|d [|e l]]]]]; simpl in H; try lia; eexists _, _; split; try reflexivity; repeat split.
Qed.

Lemma tuple_lengths l : List.length l < 1 \/ 4 < List.length l -> wrap none (LTuple l) = Raise AssertionError.
Proof. intros H. destruct l as [|a [|b [|c [|d [|e l]]]]]; simpl in H; try lia; reflexivity. Qed.

Lemma lookup_app (d e : dict V) k : lookup (d ++ e) k = match lookup d k with Some v => Some v | None => lookup e k end.
Proof. induction d as [|[k' v] d IH]; simpl; [reflexivity|]. destruct (String.eqb k' k); auto. Qed.
Lemma lookup_named (d : dict V) k : lookup (map (fun k => (k, kwarg V none d k)) named) k = if is_named k then Some (kwarg V none d k) else None.
Proof.
  unfold named, is_named. cbn [map lookup existsb named]. 
  repeat match goal with |- context [String.eqb ?a k] => rewrite (String.eqb_sym a k) end.
  repeat (match goal with |- context [String.eqb k ?b] => destruct (String.eqb_spec k b); subst; simpl; try reflexivity end).
Qed.
Lemma lookup_filter (d : dict V) k : is_named k = false -> lookup (filter (fun kv => negb (is_named (fst kv))) d) k = lookup d k.
Proof.
  intros H. induction d as [|[k' v] d IH]; simpl; [reflexivity|]. destruct (String.eqb_spec k' k) as [->|Hn].
  - rewrite H. simpl. rewrite String.eqb_refl. reflexivity.
  - destruct (is_named k'); simpl; [exact IH|]. apply String.eqb_neq in Hn. rewrite Hn. exact IH.
Qed.
Lemma lookup_In (d : dict V) k v : NoDup (keys d) -> In (k, v) d -> lookup d k = Some v.
Proof.
  induction d as [|[k' v'] d IH]; simpl; intros Hn Hi; [contradiction|]. inversion Hn as [|? ? Hx Hn']; subst.
  destruct Hi as [Hi|Hi].
  - injection Hi as -> ->. rewrite String.eqb_refl. reflexivity.
  - destruct (String.eqb_spec k' k) as [->|_]; [|auto]. exfalso. apply Hx. change k with (fst (k, v)). apply in_map. exact Hi.
Qed.

Lemma init_attrs (d : dict V) r : init none d = Ok r ->
  attrs r = map (fun k => (k, kwarg V none d k)) named ++ filter (fun kv => negb (is_named (fst kv))) d.
Proof. unfold init. destruct (existsb _ (keys d)); [discriminate|]. intros H. inversion H. reflexivity. Qed.

Lemma init_getattr (d : dict V) r k v : init none d = Ok r -> NoDup (keys d) -> In (k, v) d -> getattr r k = Ok v.
Proof.
  intros H Hn Hi. apply init_attrs in H. unfold getattr. rewrite H.
  rewrite lookup_app, lookup_named. pose proof (lookup_In d k v Hn Hi) as HL.
  destruct (is_named k) eqn:E.
  - unfold kwarg. rewrite HL. reflexivity.
  - rewrite lookup_filter by exact E. rewrite HL. reflexivity.
Qed.

Lemma init_default (d : dict V) r k : init none d = Ok r -> In k named -> ~ In k (keys d) -> getattr r k = Ok none.
Proof.
  intros H Hk Hd. apply init_attrs in H. unfold getattr. rewrite H.
  rewrite lookup_app, lookup_named.
  assert (E : is_named k = true). { unfold is_named. apply existsb_exists. exists k. split; [exact Hk|apply String.eqb_refl]. }
  rewrite E. unfold kwarg. destruct (lookup d k) eqn:EL; [|reflexivity]. exfalso. apply Hd.
  clear -EL. induction d as [|[k' v'] d IH]; simpl in *; [discriminate|]. destruct (String.eqb_spec k' k); [left; exact e|right; auto].
Qed.

Lemma init_unknown (d : dict V) r k : init none d = Ok r -> ~ In k named -> ~ In k (keys d) -> getattr r k = Raise AttributeError.
Proof.
  intros H Hk Hd. apply init_attrs in H. unfold getattr. rewrite H.
  rewrite lookup_app, lookup_named.
  assert (E : is_named k = false).
  { unfold is_named. destruct (existsb (String.eqb k) named) eqn:E; [|reflexivity]. apply existsb_exists in E as (x & H1 & H2).
    apply String.eqb_eq in H2 as <-. contradiction. }
  rewrite E, lookup_filter by exact E. destruct (lookup d k) eqn:EL; [|reflexivity]. exfalso. apply Hd.
  clear -EL. induction d as [|[k' v'] d IH]; simpl in *; [discriminate|]. destruct (String.eqb_spec k' k); [left; exact e|right; auto].
Qed.

Lemma iterate_all r (d : dict V) : (forall k v, In (k, v) d -> getattr r k = Ok v) -> iterate r (keys d) = Ok (map snd d).
Proof.
  induction d as [|[k v] d IH]; simpl; intros H; [reflexivity|]. rewrite (H k v (or_introl eq_refl)). simpl. 
  fold (keys d). rewrite IH by (intros; apply H; auto). reflexivity.
Qed.

Lemma init_ok_iff (d : dict V) : is_ok (init none d) = true <-> ~ In "self" (keys d) /\ ~ In "_iter_attrs" (keys d).
Proof.
  unfold init. destruct (existsb _ (keys d)) eqn:E; simpl.
  - apply existsb_exists in E as (k & H1 & H2). apply orb_true_iff in H2. rewrite !String.eqb_eq in H2.
    split; [discriminate|]. intros [K1 K2]. destruct H2; subst; contradiction.
  - split; [|reflexivity]. intros _. split; intros K;
      (assert (F : existsb (fun k => String.eqb k "self" || String.eqb k "_iter_attrs") (keys d) = true);
       [apply existsb_exists; eexists; split; [exact K|reflexivity]|congruence]).
Qed.

Lemma dict_roundtrip (d : dict V) : NoDup (keys d) -> ~ In "self" (keys d) -> ~ In "_iter_attrs" (keys d) ->
  exists r view, wrap none (LDict d) = Ok (r, view) /\ iterate r view = Ok (map snd d) /\
    (forall k v, In (k, v) d -> getattr r k = Ok v) /\
    (forall k, ~ In k (keys d) -> getattr r k = if is_named k then Ok none else Raise AttributeError).
Proof.
  intros Hn H1 H2. pose proof (proj2 (init_ok_iff d) (conj H1 H2)) as Hok. simpl.
  destruct (init none d) as [r|e] eqn:E; [|discriminate]. exists r, (keys d). split; [reflexivity|].
  assert (G : forall k v, In (k, v) d -> getattr r k = Ok v) by (intros; eapply init_getattr; eassumption).
  split; [apply iterate_all; exact G|]. split; [exact G|]. intros k Hk. destruct (is_named k) eqn:Ek.
  - apply (init_default d r k E); [|exact Hk]. unfold is_named in Ek. apply existsb_exists in Ek as (x & K1 & K2). apply String.eqb_eq in K2 as ->. exact K1.
  - apply (init_unknown d r k E); [|exact Hk]. intros K. assert (is_named k = true); [|congruence]. unfold is_named. apply existsb_exists.
    exists k. split; [exact K|apply String.eqb_refl].
Qed.

Lemma dict_reserved (d : dict V) : In "self" (keys d) \/ In "_iter_attrs" (keys d) -> wrap none (LDict d) = Raise TypeError.
Proof.
  intros H. simpl. pose proof (init_ok_iff d) as K. unfold init in *. destruct (existsb _ (keys d)) eqn:E; [reflexivity|]. simpl in K.
  exfalso. destruct (proj1 K eq_refl). destruct H; contradiction.
Qed.

(* the view is live: a key added to the solver's dict afterwards breaks iteration *)
Lemma dict_extended (d : dict V) k v r view : NoDup (keys d) -> ~ In k (keys d) -> ~ In k named -> wrap none (LDict d) = Ok (r, view) ->
  iterate r (keys (d ++ [(k, v)])) = Raise AttributeError.
Proof.
  intros Hn Hk Hk' H. simpl in H. destruct (init none d) as [r'|e] eqn:E; [|discriminate]. simpl in H. injection H as <- <-.
  pose proof (fun k v => init_getattr d r' k v E Hn) as G. pose proof (init_unknown d r' k E Hk' Hk) as Hu. clear E Hn Hk.
  induction d as [|[k1 v1] d IH]; simpl.
  - rewrite Hu. reflexivity.
  - rewrite (G k1 v1 (or_introl eq_refl)). simpl. fold (keys (d ++ [(k, v)])). rewrite IH; [reflexivity|]. intros k2 v2 Hi. apply G. right. exact Hi.
Qed.
End R.
