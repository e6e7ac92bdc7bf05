From Coq Require Import List String Ascii Bool ZArith QArith Lia Qpower.
From Verif Require Import PyBase CostDecoder_Model CostDecoder_Spec CostDecoder_Proofs PyFloat_Model PyFloat_Spec.
Import ListNotations.
Local Open Scope string_scope.

Lemma digit_of d : (d < 10)%nat -> digit (ascii_of_nat (48 + d)) = Some (Z.of_nat d).
Proof.
  intros H. unfold digit. rewrite nat_ascii_embedding by lia.
  destruct (Nat.leb_spec 48 (48 + d)); [|lia]. destruct (Nat.leb_spec (48 + d) 57); [|lia]. cbn [andb].
  f_equal. f_equal. lia.
Qed.

(* where a run of digits stops *)
Definition stops (s : string) : Prop := match s with EmptyString => True | String c _ => digit c = None end.

Lemma digits_run l s acc cnt :
  digit_list l -> stops s ->
  digits (digits_text l ++ s) acc cnt = ((acc * 10 ^ Z.of_nat (List.length l) + place_value l)%Z, (cnt + List.length l)%nat, s).
Proof.
  intros Hl Hs. revert acc cnt. induction Hl as [|d l Hd Hl IH]; intros.
  - cbn [digits_text append List.length place_value]. replace (acc * 10 ^ Z.of_nat 0 + 0)%Z with acc by (cbn; lia). rewrite Nat.add_0_r.
    destruct s as [|c s]; [reflexivity|]. cbn [digits]. simpl in Hs. rewrite Hs. reflexivity.
  - cbn [digits_text append digits]. rewrite digit_of by exact Hd. rewrite IH. cbn [List.length place_value].
    replace (S cnt + List.length l)%nat with (cnt + S (List.length l))%nat by lia. f_equal. f_equal.
    rewrite Nat2Z.inj_succ, Z.pow_succ_r by lia. ring.
Qed.

Lemma text_app_nil s : (s ++ "")%string = s.
Proof. induction s as [|c s IH]; [reflexivity|]. cbn. rewrite IH. reflexivity. Qed.

Lemma digit_not c : digit c <> None -> Ascii.eqb c "-" = false /\ Ascii.eqb c "+" = false /\ Ascii.eqb c "i" = false /\ Ascii.eqb c "n" = false.
Proof.
  intros H. repeat split; apply Ascii.eqb_neq; intros ->; apply H; reflexivity.
Qed.

(* a text that starts with a digit or a point *)
Definition starts_number (s : string) : Prop := match s with EmptyString => False | String c _ => digit c <> None \/ c = "."%char end.

Lemma starts_no_sign s : starts_number s -> take_sign s = (false, s).
Proof.
  destruct s as [|c s]; simpl; [intros []|]. intros [H| -> ]; [|reflexivity].
  destruct (digit_not c H) as (H1 & H2 & _). rewrite H1, H2. reflexivity.
Qed.
Lemma starts_no_word s w : starts_number s -> (exists r, w = String "i" r \/ w = String "n" r) -> String.eqb s w = false.
Proof.
  intros H [r [-> | ->]]; destruct s as [|c s]; try reflexivity; cbn [String.eqb]; simpl in H;
    destruct H as [H| ->]; try reflexivity; destruct (digit_not c H) as (_ & _ & H3 & H4); [rewrite H3|rewrite H4]; reflexivity.
Qed.

Lemma take_sign_text g s : starts_number s -> take_sign (sign_text g ++ s) = (match g with Minus => true | _ => false end, s).
Proof. intros H. destruct g; [|reflexivity|reflexivity]. exact (starts_no_sign s H). Qed.

Lemma starts_digits l s : digit_list l -> l <> [] -> starts_number (digits_text l ++ s).
Proof.
  intros H Hn. destruct H as [|d l Hd H]; [congruence|]. cbn [digits_text append starts_number]. left. rewrite digit_of by exact Hd. discriminate.
Qed.

Lemma neg_signed g z : (if match g with Minus => true | _ => false end then Z.opp z else z) = signed g z.
Proof. destruct g; reflexivity. Qed.

Lemma exponent_text c g l :
  (c = "e" \/ c = "E")%char -> digit_list l -> l <> [] -> exponent (String c (sign_text g ++ digits_text l)) = Some (signed g (place_value l)).
Proof.
  intros Hc Hl Hn. cbn [exponent].
  assert (E : (Ascii.eqb c "e" || Ascii.eqb c "E")%bool = true) by (destruct Hc as [-> | ->]; reflexivity). rewrite E.
  rewrite take_sign_text. 2:{ rewrite <- (text_app_nil (digits_text l)). apply starts_digits; assumption. }
  rewrite <- (text_app_nil (digits_text l)), digits_run by (assumption || exact I). cbn [Nat.add].
  destruct l as [|d l]; [congruence|]. cbn [List.length]. rewrite neg_signed. reflexivity.
Qed.

Lemma place_app a b : place_value (a ++ b) = (place_value a * 10 ^ Z.of_nat (List.length b) + place_value b)%Z.
Proof.
  induction a as [|d a IH]; [reflexivity|]. cbn [List.app place_value]. rewrite IH, app_length, Nat2Z.inj_add, Z.pow_add_r by lia. ring.
Qed.

Lemma scale10_value m e : scale10 m e == inject_Z m * (10 # 1) ^ e.
Proof.
  unfold scale10. rewrite Qred_correct. destruct (Z.leb_spec 0 e) as [H|H].
  - rewrite inject_Z_mult. rewrite (Qpower.Zpower_Qpower 10 e H). reflexivity.
  - assert (P : (0 < 10 ^ (- e))%Z) by (apply Z.pow_pos_nonneg; lia).
    replace e with (- (- e))%Z at 2 by lia. rewrite Qpower_opp. change (10 # 1) with (inject_Z 10). rewrite <- (Zpower_Qpower 10 (- e)) by lia.
    rewrite (Qmake_Qdiv m). rewrite Z2Pos.id by exact P. unfold Qdiv. reflexivity.
Qed.

Definition tail_text (n : numeral) : string :=
  match n_exp n with Some (c, s, l) => String c (sign_text s ++ digits_text l) | None => "" end.
Definition exp_value (n : numeral) : Z := match n_exp n with Some (_, s, l) => signed s (place_value l) | None => 0%Z end.

Lemma tail_exponent n : numeral_ok n -> exponent (tail_text n) = Some (exp_value n).
Proof.
  intros (_ & _ & _ & H). unfold tail_text, exp_value. destruct (n_exp n) as [[[c s] l]|]; [|reflexivity].
  destruct H as (Hc & Hl & Hn). apply exponent_text; assumption.
Qed.
Lemma tail_stops n : numeral_ok n -> stops (tail_text n).
Proof.
  intros (_ & _ & _ & H). unfold tail_text. destruct (n_exp n) as [[[c s] l]|]; [|exact I].
  destruct H as ([-> | ->] & _); reflexivity.
Qed.
Lemma tail_no_point n : numeral_ok n -> forall c r, tail_text n = String c r -> Ascii.eqb c "." = false.
Proof.
  intros (_ & _ & _ & H) c r E. unfold tail_text in E. destruct (n_exp n) as [[[c' s] l]|]; [|discriminate].
  injection E as <- _. destruct H as ([-> | ->] & _); reflexivity.
Qed.

Lemma reads_numeral n : numeral_ok n -> exists q, pyfloat_c (numeral_text n) = Some (Rat q) /\ q == numeral_value n.
Proof.
  intros H. pose proof (tail_exponent n H) as HE. pose proof (tail_stops n H) as HS. pose proof (tail_no_point n H) as HP.
  destruct H as (Hi & Hf & Hn & _). unfold numeral_text. fold (tail_text n).
  set (body := (digits_text (n_int n) ++ match n_frac n with Some l => "." ++ digits_text l | None => "" end ++ tail_text n)%string).
  assert (SB : starts_number body).
  { unfold body. destruct (n_int n) as [|d l] eqn:Ei.
    - unfold frac in *. destruct (n_frac n) as [l|]; [|exfalso; apply Hn; reflexivity]. cbn. right. reflexivity.
    - apply starts_digits; [exact Hi|discriminate]. }
  unfold pyfloat_c. rewrite take_sign_text by exact SB.
  rewrite !(starts_no_word body) by (exact SB || (eexists; (left; reflexivity) || (right; reflexivity))). cbn [orb].
  exists (scale10 (signed (n_sign n) (place_value (n_int n ++ frac n))) (exp_value n - Z.of_nat (List.length (frac n)))).
  split; [|apply scale10_value].
  unfold body. destruct (n_frac n) as [l|] eqn:Ef; unfold frac in *; rewrite ?Ef in *.
  - assert (ST : stops (("." ++ digits_text l) ++ tail_text n)) by reflexivity.
    rewrite digits_run by assumption. cbn [append]. change (Ascii.eqb "." ".") with true. cbv iota.
    rewrite digits_run by assumption.
    destruct (Nat.eqb_spec (0 + List.length (n_int n) + (0 + List.length l)) 0) as [E|_].
    { exfalso. apply Hn. destruct (n_int n); [|cbn in E; lia]. destruct l; [reflexivity|cbn in E; lia]. }
    rewrite HE. rewrite neg_signed, place_app. do 4 f_equal. 
  - cbn [append]. rewrite digits_run by assumption.
    assert (E : match tail_text n with
                | String c r' => if Ascii.eqb c "." then digits r' (0 * 10 ^ Z.of_nat (List.length (n_int n)) + place_value (n_int n)) 0
                                 else ((0 * 10 ^ Z.of_nat (List.length (n_int n)) + place_value (n_int n))%Z, 0%nat, tail_text n)
                | EmptyString => ((0 * 10 ^ Z.of_nat (List.length (n_int n)) + place_value (n_int n))%Z, 0%nat, tail_text n)
                end = ((0 * 10 ^ Z.of_nat (List.length (n_int n)) + place_value (n_int n))%Z, 0%nat, tail_text n)).
    { destruct (tail_text n) as [|c r] eqn:Et; [reflexivity|]. rewrite (HP c r eq_refl). reflexivity. }
    rewrite E. rewrite app_nil_r in *.
    destruct (Nat.eqb_spec (0 + List.length (n_int n) + 0) 0) as [E0|_].
    { exfalso. apply Hn. destruct (n_int n); [reflexivity|cbn in E0; lia]. }
    rewrite HE. rewrite neg_signed. reflexivity.
Qed.

Lemma reads_words g : 
  pyfloat_c (sign_text g ++ "inf") = Some (Inf (match g with Minus => true | _ => false end)) /\
  pyfloat_c (sign_text g ++ "infinity") = Some (Inf (match g with Minus => true | _ => false end)) /\
  pyfloat_c (sign_text g ++ "nan") = Some Nan.
Proof. destruct g; repeat split; reflexivity. Qed.

Lemma no_dash_app a b : no_dash (a ++ b)%string <-> no_dash a /\ no_dash b.
Proof. induction a as [|c a IH]; cbn [append no_dash]; [tauto|]. rewrite IH. tauto. Qed.
Lemma no_dash_digits l : digit_list l -> no_dash (digits_text l).
Proof.
  intros H. induction H as [|d l Hd H IH]; [exact I|]. cbn [digits_text no_dash]. split; [|exact IH].
  intros E. pose proof (digit_of d Hd) as D. rewrite E in D. discriminate D.
Qed.
Lemma no_dash_sign g : no_dash (sign_text g) <-> g <> Minus.
Proof. destruct g; cbn; split; intros H; try discriminate; try exact I; try (split; [discriminate|exact I]); try congruence. destruct H as [H _]. congruence. Qed.

Lemma no_dash_numeral n : numeral_ok n ->
  (no_dash (numeral_text n) <-> n_sign n <> Minus /\ (forall c s l, n_exp n = Some (c, s, l) -> s <> Minus)).
Proof.
  intros (Hi & Hf & Hn & He). unfold numeral_text. rewrite !no_dash_app, no_dash_sign.
  pose proof (no_dash_digits _ Hi) as Di. pose proof (no_dash_digits _ Hf) as Df. unfold frac in Df.
  assert (Dp : no_dash match n_frac n with Some l => "." ++ digits_text l | None => "" end).
  { destruct (n_frac n) as [l|]; [|exact I]. cbn. split; [discriminate|exact Df]. }
  split.
  - intros (H1 & _ & _ & H2). split; [exact H1|]. intros c s l E. rewrite E in H2. cbn [no_dash] in H2. destruct H2 as [_ H2].
    apply no_dash_app in H2. apply no_dash_sign. exact (proj1 H2).
  - intros [H1 H2]. repeat split; try assumption. destruct (n_exp n) as [[[c s] l]|]; [|exact I]. destruct He as (Hc & Hl & _).
    cbn [no_dash]. split; [destruct Hc as [-> | ->]; discriminate|]. apply no_dash_app. split; [|exact (no_dash_digits _ Hl)].
    apply no_dash_sign. exact (H2 c s l eq_refl).
Qed.

Lemma numerals_in_cost a b :
  numeral_ok a -> numeral_ok b -> no_dash (numeral_text a) -> no_dash (numeral_text b) ->
  exists p k, cost_from_str pyf pyfloat_c dk_c ge0_c (join_dash ["t"; "NC"; numeral_text a; numeral_text b]) =
    Ok (mkCost NC (Rat k) (Rat p) None (join_dash ["t"; "NC"; numeral_text a; numeral_text b])) /\
    p == numeral_value a /\ k == numeral_value b.
Proof.
  intros Ha Hb Da Db. destruct (reads_numeral a Ha) as (p & Ep & Vp). destruct (reads_numeral b Hb) as (k & Ek & Vk).
  exists p, k. split; [|split; assumption]. apply dash_free_literals; assumption.
Qed.

Lemma place_nonneg l : (0 <= place_value l)%Z.
Proof. induction l as [|d l IH]; cbn [place_value]; [lia|]. pose proof (Z.pow_nonneg 10 (Z.of_nat (List.length l))). nia. Qed.
Lemma value_nonneg n : n_sign n <> Minus -> 0 <= numeral_value n.
Proof.
  intros H. unfold numeral_value. apply Qmult_le_0_compat.
  - change 0 with (inject_Z 0). rewrite <- Zle_Qle. pose proof (place_nonneg (n_int n ++ frac n)). destruct (n_sign n); cbn [signed]; try lia. congruence.
  - apply Qpower_0_le. discriminate.
Qed.

Lemma kappa_text a b :
  numeral_ok a -> numeral_ok b -> no_dash (numeral_text a) -> no_dash (numeral_text b) ->
  exists p q, p == numeral_value a /\ q == numeral_value b /\
  (forall n, numeral_ok n -> no_dash (numeral_text n) -> exists k, k == numeral_value n /\
     cost_from_str pyf pyfloat_c dk_c ge0_c (join_dash ["t"; "NLC"; numeral_text a; numeral_text b; numeral_text n]) =
       Ok (mkCost NLC (Rat q) (Rat p) (Some (Rat k)) (join_dash ["t"; "NLC"; numeral_text a; numeral_text b; numeral_text n]))) /\
  cost_from_str pyf pyfloat_c dk_c ge0_c (join_dash ["t"; "NLC"; numeral_text a; numeral_text b; "inf"]) =
    Ok (mkCost NLC (Rat q) (Rat p) (Some (Inf false)) (join_dash ["t"; "NLC"; numeral_text a; numeral_text b; "inf"])) /\
  cost_from_str pyf pyfloat_c dk_c ge0_c (join_dash ["t"; "NLC"; numeral_text a; numeral_text b; "nan"]) = Raise AssertionError /\
  (forall t, no_dash t -> cost_from_str pyf pyfloat_c dk_c ge0_c (join_dash ["t"; "NLC"; numeral_text a; numeral_text b; ("-" ++ t)%string]) = Raise ValueError).
Proof.
  intros Ha Hb Da Db. destruct (reads_numeral a Ha) as (p & Ep & Vp). destruct (reads_numeral b Hb) as (q & Eq & Vq).
  exists p, q. split; [exact Vp|]. split; [exact Vq|].
  assert (F5 : forall t, no_dash t -> fields (join_dash ["t"; "NLC"; numeral_text a; numeral_text b; t]) ["t"; "NLC"; numeral_text a; numeral_text b; t]).
  { intros t Dt. split; [discriminate|]. split; [|reflexivity]. repeat constructor; try assumption; discriminate. }
  assert (G : forall t v, no_dash t -> pyfloat_c t = Some v ->
    cost_from_str pyf pyfloat_c dk_c ge0_c (join_dash ["t"; "NLC"; numeral_text a; numeral_text b; t]) =
    if ge0_c v then Ok (mkCost NLC (Rat q) (Rat p) (Some v) (join_dash ["t"; "NLC"; numeral_text a; numeral_text b; t])) else Raise AssertionError).
  { intros t v Dt Et. exact (from_str_means pyf pyfloat_c dk_c ge0_c _ _ NLC (Rat p) (Rat q) v (F5 t Dt)
      (means_intro pyfloat_c dk_c NLC (numeral_text a) (numeral_text b) [t] (Rat p) (Rat q) v Ep Eq Et)). }
  split; [|split; [|split]].
  - intros n Hn Dn. destruct (reads_numeral n Hn) as (k & Ek & Vk). exists k. split; [exact Vk|].
    rewrite (G _ _ Dn Ek). assert (E : ge0_c (Rat k) = true); [|rewrite E; reflexivity].
    cbn [ge0_c]. apply Qle_bool_iff. rewrite Vk. apply value_nonneg. exact (proj1 (proj1 (no_dash_numeral n Hn) Dn)).
  - rewrite (G "inf" (Inf false)); [reflexivity| |reflexivity]. repeat split; discriminate.
  - rewrite (G "nan" Nan); [reflexivity| |reflexivity]. repeat split; discriminate.
  - intros t Dt.
    assert (S : split_dash (join_dash ["t"; "NLC"; numeral_text a; numeral_text b; ("-" ++ t)%string]) = ["t"; "NLC"; numeral_text a; numeral_text b; ""; t]).
    { change (join_dash ["t"; "NLC"; numeral_text a; numeral_text b; ("-" ++ t)%string]) with (join_dash ["t"; "NLC"; numeral_text a; numeral_text b; ""; t]).
      apply split_join; [discriminate|]. repeat constructor; try assumption; discriminate. }
    unfold cost_from_str. rewrite S. reflexivity.
Qed.
