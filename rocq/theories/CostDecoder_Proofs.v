From Coq Require Import List String Ascii Bool.
From Coq Require Import QArith.
From Verif Require Import PyBase CostDecoder_Model CostDecoder_Spec PyFloat_Model.
Import ListNotations.
Local Open Scope string_scope.

Lemma split_nonempty s : split_dash s <> [].
Proof.
  destruct s as [|c r]; simpl; [discriminate|].
  destruct (Ascii.eqb c "-"); [discriminate|].
  destruct (split_dash r); discriminate.
Qed.

Lemma split_no_dash s : Forall no_dash (split_dash s).
Proof.
  induction s as [|c r IH]; simpl.
  - constructor; simpl; auto.
  - destruct (Ascii.eqb_spec c "-") as [->|Hne].
    + constructor; simpl; auto.
    + destruct (split_dash r) as [|f fs]; inversion IH; subst; repeat constructor; auto.
Qed.

Lemma join_split s : join_dash (split_dash s) = s.
Proof.
  induction s as [|c r IH]; simpl; [reflexivity|].
  pose proof (split_nonempty r) as Hne.
  destruct (Ascii.eqb_spec c "-") as [->|Hc].
  - simpl. destruct (split_dash r) as [|f fs]; [contradiction|]. rewrite <- IH. reflexivity.
  - destruct (split_dash r) as [|f fs]; [contradiction|].
    rewrite <- IH. destruct fs; reflexivity.
Qed.

Lemma split_field f : no_dash f -> split_dash f = [f].
Proof.
  induction f as [|c r IH]; simpl; intros H; [reflexivity|].
  destruct H as [Hc Hr].
  destruct (Ascii.eqb_spec c "-") as [->|_]; [contradiction|].
  rewrite IH by exact Hr. reflexivity.
Qed.

Lemma split_app f s : no_dash f -> split_dash (f ++ "-" ++ s) = f :: split_dash s.
Proof.
  induction f as [|c r IH]; simpl; intros H; [reflexivity|].
  destruct H as [Hc Hr].
  destruct (Ascii.eqb_spec c "-") as [->|_]; [contradiction|].
  simpl in IH. rewrite IH by exact Hr. reflexivity.
Qed.

Lemma split_join fs : fs <> [] -> Forall no_dash fs -> split_dash (join_dash fs) = fs.
Proof.
  induction fs as [|f r IH]; intros Hne H; [contradiction|].
  inversion H as [|? ? Hf Hr]; subst.
  destruct r as [|g r'].
  - simpl. apply split_field. exact Hf.
  - change (join_dash (f :: g :: r')) with (f ++ "-" ++ join_dash (g :: r')).
    rewrite split_app by exact Hf. rewrite IH by (discriminate || exact Hr). reflexivity.
Qed.

Lemma fields_split code fs : fields code fs <-> split_dash code = fs.
Proof.
  split.
  - intros (Hne & Hd & <-). apply split_join; assumption.
  - intros <-. repeat split; [apply split_nonempty | apply split_no_dash | apply join_split].
Qed.

Section P.
  Variable F : Type.
  Variable pyfloat : string -> option F.
  Variables two dk : F.
  Variable ge0 : F -> bool.
  Let from_str := cost_from_str F pyfloat dk ge0.
  Let decode := decode_torch F pyfloat two dk ge0.

  Lemma decoders_agree code fs hl :
    fields code fs -> (List.length fs = 4%nat \/ List.length fs = 5%nat) -> hd "" fs = "t" ->
    same_cost (from_str code) (decode (Some code) hl).
  Proof.
    intros Hf Hlen Ht. apply fields_split in Hf.
    unfold from_str, decode, cost_from_str, decode_torch, parse_code_torch. rewrite Hf.
    destruct fs as [|e [|i [|pw [|ty [|k [|x rest]]]]]]; simpl in Hlen;
      try (destruct Hlen; discriminate); simpl in Ht; subst e.
    - simpl. unfold to_float.
      destruct (pyfloat pw) as [vpw|]; destruct (pyfloat ty) as [vty|]; simpl;
        unfold cost_from_parse_torch; simpl;
        destruct (String.eqb i "NC"); simpl; auto;
        destruct (String.eqb i "NLC"); simpl; auto;
        unfold NormLabelCost, assert_; destruct (ge0 dk); simpl; auto.
    - simpl. unfold to_float.
      destruct (pyfloat k) as [vk|]; simpl; auto.
      destruct (pyfloat pw) as [vpw|]; destruct (pyfloat ty) as [vty|]; simpl;
        unfold cost_from_parse_torch; simpl;
        destruct (String.eqb i "NC"); simpl; auto;
        destruct (String.eqb i "NLC"); simpl; auto;
        unfold NormLabelCost, assert_; destruct (ge0 vk); simpl; auto.
  Qed.

  (* the exact result on codes that have a meaning *)
  Lemma from_str_means code fs k vpw vty vk :
    fields code fs -> means pyfloat dk fs k vpw vty vk ->
    from_str code =
      match k with
      | NC => Ok (mkCost NC vty vpw None code)
      | NLC => if ge0 vk then Ok (mkCost NLC vty vpw (Some vk) code) else Raise AssertionError
      end.
  Proof.
    intros Hf Hm. apply fields_split in Hf.
    inversion Hm as [k' pw ty rest vpw' vty' vk' H1 H2 H3]; subst.
    unfold from_str, cost_from_str. rewrite <- H.
    assert (E : (match rest with k0 :: _ => to_float F pyfloat k0 | [] => Ok dk end) = Ok vk).
    { destruct rest as [|t r]; [subst; reflexivity|]. unfold to_float. rewrite H3. reflexivity. }
    rewrite E. simpl. unfold to_float. rewrite H1, H2.
    destruct k; simpl; auto.
    unfold NormLabelCost, assert_. destruct (ge0 vk); reflexivity.
  Qed.

  Lemma from_str_no_means code fs :
    fields code fs -> (forall k vpw vty vk, ~ means pyfloat dk fs k vpw vty vk) ->
    from_str code = Raise ValueError.
  Proof.
    intros Hf Hno. apply fields_split in Hf.
    unfold from_str, cost_from_str. rewrite Hf.
    destruct fs as [|e [|i [|pw [|ty rest]]]]; auto.
    destruct (match rest with k :: _ => to_float F pyfloat k | [] => Ok dk end) as [vk|ex] eqn:Ek.
    2:{ destruct rest; [discriminate|]. unfold to_float in Ek. destruct (pyfloat s); inversion Ek. reflexivity. }
    simpl.
    destruct (String.eqb_spec e "t") as [->|]; [|reflexivity].
    assert (Hk : match rest with [] => vk = dk | t :: _ => pyfloat t = Some vk end).
    { destruct rest; [inversion Ek; reflexivity|]. unfold to_float in Ek. destruct (pyfloat s); inversion Ek; reflexivity. }
    unfold to_float.
    destruct (pyfloat ty) as [vty|] eqn:Ety; destruct (pyfloat pw) as [vpw|] eqn:Epw; simpl;
      destruct (String.eqb_spec i "NC") as [->|];
      try (destruct (String.eqb_spec i "NLC") as [->|]); try reflexivity.
    - exfalso. apply (Hno NC vpw vty vk). apply (means_intro pyfloat dk NC); auto.
    - exfalso. apply (Hno NLC vpw vty vk). apply (means_intro pyfloat dk NLC); auto.
  Qed.

  Lemma default_spec_cost hl :
    decode None hl =
      if hl then (if ge0 dk then Ok (mkCost NLC two two (Some dk) "Kappa-norm") else Raise AssertionError)
      else Ok (mkCost NC two two None "Norm").
  Proof.
    unfold decode, decode_torch; destruct hl; simpl; [|reflexivity].
    unfold cost_from_parse_torch; simpl. unfold NormLabelCost, assert_. destruct (ge0 dk); reflexivity.
  Qed.

  (* four fields: the engine is checked *)
  Lemma engine4_checked code e i pw ty hl :
    fields code [e; i; pw; ty] -> e <> "t" -> decode (Some code) hl = Raise AssertionError.
  Proof.
    intros Hf He. apply fields_split in Hf.
    unfold decode, decode_torch, parse_code_torch. rewrite Hf. simpl.
    destruct (String.eqb_spec e "t"); [contradiction|]. reflexivity.
  Qed.

  (* five fields: it is not; the decoded cost is the one of engine t *)
  Lemma engine5_ignored e i pw ty k hl :
    Forall no_dash [e; i; pw; ty; k] ->
    decode (Some (join_dash [e; i; pw; ty; k])) hl = decode (Some (join_dash ["t"; i; pw; ty; k])) hl.
  Proof.
    intros H. unfold decode, decode_torch, parse_code_torch.
    rewrite split_join by (discriminate || exact H).
    rewrite (split_join ["t"; i; pw; ty; k]).
    2: discriminate.
    2:{ inversion H; subst. constructor; [simpl; repeat split; discriminate|assumption]. }
    unfold to_float. destruct (pyfloat k), (pyfloat pw), (pyfloat ty); reflexivity.
  Qed.
End P.

Lemma unique_fields code : exists fs, fields code fs /\ forall fs', fields code fs' -> fs' = fs.
Proof.
  exists (split_dash code). split; [apply fields_split; reflexivity|].
  intros fs' H. symmetry. apply fields_split. exact H.
Qed.

Lemma any_literal_refuted :
  exists lit : string,
    pyfloat_c lit = Some (Rat (1 # 1000)) /\
    (forall (F : Type) (pyfloat : string -> option F) (dk : F) (ge0 : F -> bool),
       pyfloat "1e" = None ->
       cost_from_str F pyfloat dk ge0 (join_dash ["t"; "NC"; lit; "2"]) = Raise ValueError).
Proof.
  exists "1e-3". split; [reflexivity|].
  intros F pyfloat dk ge0 H. unfold cost_from_str. simpl. unfold to_float. rewrite H.
  destruct (pyfloat "2"), (pyfloat "3"); reflexivity.
Qed.

Lemma dash_free_literals :
  forall (F : Type) (pyfloat : string -> option F) (dk : F) (ge0 : F -> bool) a b va vb,
    no_dash a -> no_dash b -> pyfloat a = Some va -> pyfloat b = Some vb ->
    cost_from_str F pyfloat dk ge0 (join_dash ["t"; "NC"; a; b]) =
      Ok (mkCost NC vb va None (join_dash ["t"; "NC"; a; b])).
Proof.
  intros F pyfloat dk ge0 a b va vb Ha Hb Hva Hvb.
  refine (from_str_means F pyfloat dk ge0 _ ["t"; "NC"; a; b] NC va vb dk _ _).
  - repeat split; [discriminate|].
    repeat constructor; try assumption; discriminate.
  - apply (means_intro pyfloat dk NC a b [] va vb dk); auto.
Qed.

Lemma tutorial_order_refuted :
  forall (F : Type) (pyfloat : string -> option F) (dk : F) (ge0 : F -> bool) k p vk vp,
    no_dash k -> no_dash p -> pyfloat k = Some vk -> pyfloat p = Some vp -> vk <> vp ->
    ~ tutorial_reading (cost_from_str F pyfloat dk ge0 (join_dash ["t"; "NC"; k; p])) vk vp.
Proof.
  intros F pyfloat dk ge0 k p vk vp Hk Hp Ek Ep Hne (c & Hc & H1 & H2).
  rewrite (dash_free_literals F pyfloat dk ge0 k p vk vp Hk Hp Ek Ep) in Hc.
  injection Hc as Hc. rewrite <- Hc in H1. simpl in H1. apply Hne. symmetry. exact H1.
Qed.

Lemma default_ok :
  forall (F : Type) (pyfloat : string -> option F) (two dk : F) (ge0 : F -> bool) (hl : bool),
    ge0 dk = true ->
    decode_torch F pyfloat two dk ge0 None hl =
      Ok (if hl then mkCost NLC two two (Some dk) "Kappa-norm" else mkCost NC two two None "Norm").
Proof.
  intros F pyfloat two dk ge0 hl H. rewrite default_spec_cost, H. destruct hl; reflexivity.
Qed.

Lemma tutorial_order_witness :
  exists k p vk vp,
    pyfloat_c k = Some vk /\ pyfloat_c p = Some vp /\
    ~ tutorial_reading (cost_from_str pyf pyfloat_c dk_c ge0_c (join_dash ["t"; "NC"; k; p])) vk vp.
Proof.
  exists "1"%string, "2"%string, (Rat 1), (Rat 2). split; [reflexivity|]. split; [reflexivity|].
  apply tutorial_order_refuted; try reflexivity; try (repeat split; discriminate).
Qed.

Lemma engine5_witness :
  exists code e rest c,
    fields code (e :: rest) /\ e <> "t"%string /\ decode_torch pyf pyfloat_c two_c dk_c ge0_c (Some code) false = Ok c.
Proof.
  exists "jx-NC-2-2-1"%string, "jx"%string, ["NC"; "2"; "2"; "1"]%string. eexists.
  split; [apply fields_split; reflexivity|]. split; [discriminate|]. vm_compute. reflexivity.
Qed.
