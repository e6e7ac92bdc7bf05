(* C160, C161: the figures of the classifier comparisons and the radii chosen in the examples. *)
From Coq Require Import Reals List Bool ZArith Arith String Lia Lra.
From Verif Require Import PyBase RList XReal SampleLaw_Spec ClassComp_Model.
Import ListNotations.
Local Open Scope R_scope.

(* ---------- C160: the percentages ---------- *)
(* n is r without its decimals *)
Definition cut (r : R) (n : Z) : Prop := (0 <= r -> IZR n <= r < IZR n + 1) /\ (r <= 0 -> IZR n - 1 < r <= IZR n).
Lemma py_int_cut r : cut r (py_int r).
Proof.
  unfold cut, py_int. destruct (Rleb 0 r) eqn:E.
  - apply Rleb_true in E. pose proof (base_Int_part r) as [H1 H2]. split; [lra|]. intros Hr. assert (r = 0) by lra. subst r.
    assert (Q : Int_part 0 = 0%Z) by (assert ((-1 < Int_part 0 < 1)%Z) by (split; apply lt_IZR; lra); lia).
    rewrite Q. lra.
  - apply Rleb_false in E. pose proof (base_Int_part (- r)) as [H1 H2]. rewrite opp_IZR. split; lra.
Qed.
Lemma cut_unique r n m : cut r n -> cut r m -> n = m.
Proof.
  intros [A1 A2] [B1 B2]. destruct (Rle_dec 0 r) as [H|H].
  - specialize (A1 H). specialize (B1 H). assert (IZR n < IZR m + 1) by lra. assert (IZR m < IZR n + 1) by lra. rewrite <- plus_IZR in *. apply lt_IZR in H0, H1. lia.
  - assert (H' : r <= 0) by lra. specialize (A2 H'). specialize (B2 H'). assert (IZR n < IZR m + 1) by lra. assert (IZR m < IZR n + 1) by lra. rewrite <- plus_IZR in *. apply lt_IZR in H0, H1. lia.
Qed.
(* A rate between 0 and 1 is shown rounded down, so 100% stands for no error at all; a gap of less than one percent on either side is
   shown as 0%, so the sign of a small gap is lost; the number shown is less than one percent away *)
Theorem C160_percent : forall r,
  (0 <= r <= 1 -> (0 <= percent r <= 100)%Z /\ IZR (percent r) <= 100 * r < IZR (percent r) + 1 /\ (percent r = 100%Z <-> r = 1)) /\
  (percent r = 0%Z <-> Rabs r < 1 / 100) /\ Rabs (100 * r - IZR (percent r)) < 1.
Proof.
  intros r. unfold percent. pose proof (py_int_cut (r * 100)) as C. pose proof C as [C1 C2]. split; [|split].
  - intros Hr. specialize (C1 ltac:(lra)). assert (L : (-1 < py_int (r * 100) < 101)%Z) by (split; apply lt_IZR; lra). split; [lia|]. split; [lra|]. split.
    + intros E. rewrite E in C1. lra.
    + intros ->. apply (cut_unique (1 * 100)); [exact C|]. split; lra.
  - split.
    + intros E. rewrite E in C1, C2. apply Rabs_def1; destruct (Rle_dec 0 (r * 100)) as [H|H]; [specialize (C1 H)|specialize (C2 ltac:(lra))|specialize (C1 H)|specialize (C2 ltac:(lra))]; lra.
    + intros H. apply Rabs_def2 in H. apply (cut_unique (r * 100)); [exact C|]. split; lra.
  - apply Rabs_def1; destruct (Rle_dec 0 (r * 100)) as [H|H]; [specialize (C1 H)|specialize (C2 ltac:(lra))|specialize (C1 H)|specialize (C2 ltac:(lra))]; lra.
Qed.
Print Assumptions C160_percent.
(* an accuracy of 0.999 is shown as 99%; a loss 0.9% lower or higher than the reference is shown as 0% *)
Example C160_percent_case : percent (999 / 1000) = 99%Z /\ percent (9 / 1000) = 0%Z /\ percent (- 9 / 1000) = 0%Z /\ percent (- 25 / 1000) = (-2)%Z.
Proof.
  split; [apply (cut_unique (999 / 1000 * 100)); [apply py_int_cut|split; lra]|]. split; [apply C160_percent; apply Rabs_def1; lra|]. split; [apply C160_percent; apply Rabs_def1; lra|].
  apply (cut_unique (- 25 / 1000 * 100)); [apply py_int_cut|split; lra].
Qed.

(* ---------- C160: the colours ---------- *)
(* the two functions given to FuncNorm are inverse to each other and increasing, and 1/2 stays in the middle *)
Theorem C160_colours :
  (forall a, 0 < forward_norm a < 1 /\ backward_norm (forward_norm a) = a) /\
  (forall b, 0 < b < 1 -> forward_norm (backward_norm b) = b) /\
  (forall a b, a < b -> forward_norm a < forward_norm b) /\ forward_norm (1 / 2) = 1 / 2.
Proof.
  assert (P : forall a, 0 < forward_norm a < 1).
  { intros a. unfold forward_norm. pose proof (exp_pos (- norm_param * (a - 1 / 2))) as E. split; [apply Rdiv_lt_0_compat; lra|]. apply (Rmult_lt_reg_r (1 + exp (- norm_param * (a - 1 / 2)))); [lra|].
    field_simplify; lra. }
  split; [|split; [|split]].
  - intros a. split; [apply P|]. unfold backward_norm.
    assert (Q : forward_norm a / (1 - forward_norm a) = exp (norm_param * (a - 1 / 2))).
    { unfold forward_norm. replace (- norm_param * (a - 1 / 2)) with (- (norm_param * (a - 1 / 2))) by lra. rewrite exp_Ropp. pose proof (exp_pos (norm_param * (a - 1 / 2))) as E. field. split; [|split]; lra. }
    rewrite Q, ln_exp. unfold norm_param. lra.
  - intros b Hb. unfold forward_norm, backward_norm. replace (- norm_param * (1 / norm_param * ln (b / (1 - b)) + 1 / 2 - 1 / 2)) with (- ln (b / (1 - b))) by (generalize (ln (b / (1 - b))); intros v; unfold norm_param; lra).
    rewrite exp_Ropp, exp_ln by (apply Rdiv_lt_0_compat; lra). field. split; lra.
  - intros a b H. unfold forward_norm. assert (E : exp (- norm_param * (b - 1 / 2)) < exp (- norm_param * (a - 1 / 2))) by (apply exp_increasing; unfold norm_param; lra).
    pose proof (exp_pos (- norm_param * (b - 1 / 2))) as Q. revert E Q. generalize (exp (- norm_param * (b - 1 / 2))) (exp (- norm_param * (a - 1 / 2))). intros u v E Q. unfold Rdiv. rewrite !Rmult_1_l. apply Rinv_lt_contravar; [apply Rmult_lt_0_compat; lra|lra].
  - unfold forward_norm. replace (- norm_param * (1 / 2 - 1 / 2)) with 0 by lra. rewrite exp_0. lra.
Qed.
Print Assumptions C160_colours.
Example C160_colours_case : 1 / 2 < forward_norm 1 < 1.
Proof. destruct C160_colours as (H1 & _ & H3 & H4). rewrite <- H4 at 1. split; [apply H3; lra|apply H1]. Qed.

(* ---------- C160: the panels ---------- *)
Section Panels.
Variables (Train Test Model : Type).
Variable fit : nat -> Train -> Model.
Variables score f1 loss : Model -> Test -> R.
Variable contour : levels_arg -> Model -> Train * Test -> list R.
(* matplotlib draws the levels it is given *)
Hypothesis contour_given : forall l m ds, contour (Levels l) m ds = l.
Notation turn := (turn Train Test Model fit score f1 loss contour).
Notation turns := (turns Train Test Model fit score f1 loss contour).
Notation rows := (rows Train Test Model fit score f1 loss contour).
Notation plot := (plot fit score f1 loss contour).

(* specification: what the panel of the classifier clf shows for the data set ds when the reference is the classifier c0 *)
Definition shows (p : panel) (ds : Train * Test) (c0 clf : nat) : Prop :=
  let own := fit clf (fst ds) in let ref := fit c0 (fst ds) in
  p_text p = (percent (score own (snd ds)), percent (f1 own (snd ds)), percent ((loss own (snd ds) - loss ref (snd ds)) / Rabs (loss ref (snd ds)))).

Lemma turn_ok first top ds name clf s : clf = first \/ s_models _ s first = Some (fit first (fst ds)) -> loss (fit first (fst ds)) (snd ds) <> 0 ->
  exists p s', turn first top ds name clf s = Ok (p, s') /\ shows p ds first clf /\ p_index p = s_i _ s /\ p_title p = (if top then Some name else None) /\
    p_levels p = contour (s_levels _ s) (fit clf (fst ds)) ds /\ s_models _ s' first = Some (fit first (fst ds)) /\ s_levels _ s' = Levels (p_levels p) /\ s_i _ s' = S (s_i _ s).
Proof.
  intros Hf Hl. unfold ClassComp_Model.turn.
  assert (Hm : put _ (s_models _ s) clf (fit clf (fst ds)) first = Some (fit first (fst ds))).
  { unfold put. destruct (Nat.eqb_spec first clf) as [->|N]; [reflexivity|]. destruct Hf as [Q|Q]; [congruence|exact Q]. }
  rewrite Hm. unfold loss_gap. destruct (Reqb (loss (fit first (fst ds)) (snd ds)) 0) eqn:E; [apply Reqb_true in E; contradiction|]. cbn [bind].
  eexists _, _. split; [reflexivity|]. cbn. repeat split; try reflexivity. exact Hm.
Qed.
Lemma turns_ok first top ds l : loss (fit first (fst ds)) (snd ds) <> 0 -> forall pairs s,
  s_models _ s first = Some (fit first (fst ds)) -> s_levels _ s = Levels l ->
  exists ps s', turns first top ds pairs s = Ok (ps, s') /\ List.length ps = List.length pairs /\ s_models _ s' first = Some (fit first (fst ds)) /\ s_levels _ s' = Levels l /\ s_i _ s' = (s_i _ s + List.length pairs)%nat /\
    forall j name clf, nth_error pairs j = Some (name, clf) -> exists p, nth_error ps j = Some p /\ shows p ds first clf /\ p_index p = (s_i _ s + j)%nat /\ p_title p = (if top then Some name else None) /\ p_levels p = l.
Proof.
  intros Hl pairs. induction pairs as [|[name clf] pairs IH]; intros s Hs Hv.
  - exists [], s. cbn. split; [reflexivity|]. split; [reflexivity|]. split; [exact Hs|]. split; [exact Hv|]. split; [lia|]. intros j n c H. destruct j; discriminate H.
  - destruct (turn_ok first top ds name clf s (or_intror Hs) Hl) as (p & s1 & E1 & S1 & I1 & T1 & L1 & M1 & V1 & N1).
    rewrite Hv, contour_given in L1. rewrite L1 in V1. destruct (IH s1 M1 V1) as (ps & s2 & E2 & Len & M2 & V2 & N2 & All).
    exists (p :: ps), s2. cbn [ClassComp_Model.turns]. rewrite E1. cbn [bind]. rewrite E2. cbn [bind]. split; [reflexivity|]. split; [cbn; lia|]. split; [exact M2|]. split; [exact V2|].
    split; [cbn; lia|]. intros [|j] n c H; cbn in H.
    + injection H as <- <-. exists p. cbn. split; [reflexivity|]. split; [exact S1|]. split; [lia|]. split; [exact T1|exact L1].
    + destruct (All j n c H) as (q & Q1 & Q2 & Q3 & Q4 & Q5). exists q. cbn. split; [exact Q1|]. split; [exact Q2|]. split; [lia|]. split; [exact Q4|exact Q5].
Qed.
(* a whole row, whatever was fitted before: classifiers[0] is fitted first *)
Lemma row_ok first top ds name pairs s : loss (fit first (fst ds)) (snd ds) <> 0 ->
  let l := contour (s_levels _ s) (fit first (fst ds)) ds in
  exists ps s', turns first top ds ((name, first) :: pairs) s = Ok (ps, s') /\ List.length ps = S (List.length pairs) /\ s_levels _ s' = Levels l /\ s_i _ s' = (s_i _ s + S (List.length pairs))%nat /\
    forall j n clf, nth_error ((name, first) :: pairs) j = Some (n, clf) -> exists p, nth_error ps j = Some p /\ shows p ds first clf /\ p_index p = (s_i _ s + j)%nat /\ p_title p = (if top then Some n else None) /\ p_levels p = l.
Proof.
  intros Hl l. destruct (turn_ok first top ds name first s (or_introl eq_refl) Hl) as (p & s1 & E1 & S1 & I1 & T1 & L1 & M1 & V1 & N1). fold l in L1. rewrite L1 in V1.
  destruct (turns_ok first top ds l Hl pairs s1 M1 V1) as (ps & s2 & E2 & Len & M2 & V2 & N2 & All).
  exists (p :: ps), s2. cbn [ClassComp_Model.turns]. rewrite E1. cbn [bind]. rewrite E2. cbn [bind]. split; [reflexivity|]. split; [cbn; lia|]. split; [exact V2|]. split; [lia|].
  intros [|j] n c H; cbn in H.
  - injection H as <- <-. exists p. cbn. split; [reflexivity|]. split; [exact S1|]. split; [lia|]. split; [exact T1|exact L1].
  - destruct (All j n c H) as (q & Q1 & Q2 & Q3 & Q4 & Q5). exists q. cbn. split; [exact Q1|]. split; [exact Q2|]. split; [lia|]. split; [exact Q4|exact Q5].
Qed.
Lemma rows_ok first name pairs l : let n := S (List.length pairs) in forall dss top s,
  (forall ds, In ds dss -> loss (fit first (fst ds)) (snd ds) <> 0) -> (forall ds, hd_error dss = Some ds -> l = contour (s_levels _ s) (fit first (fst ds)) ds) ->
  exists ps s', rows first top ((name, first) :: pairs) dss s = Ok (ps, s') /\ List.length ps = (List.length dss * n)%nat /\
    forall k j ds nm clf, nth_error dss k = Some ds -> nth_error ((name, first) :: pairs) j = Some (nm, clf) ->
      exists p, nth_error ps (k * n + j) = Some p /\ shows p ds first clf /\ p_index p = (s_i _ s + k * (n + 2) + 2 + j)%nat /\
        p_title p = (if top then if Nat.eqb k 0 then Some nm else None else None) /\ p_levels p = l.
Proof.
  intros n dss. induction dss as [|ds dss IH]; intros top s Hl Hc.
  - exists [], s. split; [reflexivity|]. split; [reflexivity|]. intros k j d nm c H. destruct k; discriminate H.
  - set (s0 := {| s_models := s_models _ s; s_levels := s_levels _ s; s_i := S (S (s_i _ s)) |}).
    destruct (row_ok first top ds name pairs s0 (Hl ds (or_introl eq_refl))) as (ps & s1 & E1 & Len & V1 & N1 & All). cbn [s_levels s0] in V1, All.
    pose proof (Hc ds eq_refl) as Hh. change (s_levels Model s0) with (s_levels Model s) in V1, All. rewrite <- Hh in V1, All.
    destruct (IH false s1 (fun d Hd => Hl d (or_intror Hd))) as (qs & s2 & E2 & Len2 & All2).
    { intros d _. rewrite V1. symmetry. apply contour_given. }
    exists (List.app ps qs), s2. cbn [ClassComp_Model.rows]. fold s0. rewrite E1. cbn [bind]. rewrite E2. cbn [bind]. split; [reflexivity|]. split; [rewrite app_length; cbn; unfold n in *; lia|].
    intros k j d nm c Hk Hj. assert (Hjn : (j < n)%nat) by (change n with (List.length ((name, first) :: pairs)); apply nth_error_Some; rewrite Hj; discriminate).
    destruct k as [|k]; cbn [nth_error] in Hk.
    + injection Hk as <-. destruct (All j nm c Hj) as (p & Q1 & Q2 & Q3 & Q4 & Q5). exists p. split; [rewrite nth_error_app1 by (unfold n in *; lia); exact Q1|]. split; [exact Q2|].
      split; [rewrite Q3; cbn; lia|]. split; [rewrite Q4; destruct top; reflexivity|exact Q5].
    + destruct (All2 k j d nm c Hk Hj) as (p & Q1 & Q2 & Q3 & Q4 & Q5). exists p. split; [rewrite nth_error_app2 by (unfold n in *; lia); replace (S k * n + j - List.length ps)%nat with (k * n + j)%nat by (unfold n in *; lia); exact Q1|].
      split; [exact Q2|]. split; [rewrite Q3, N1; cbn [s_i s0]; unfold n; cbn; lia|]. split; [rewrite Q4; destruct top; reflexivity|exact Q5].
Qed.
Lemma nth_error_combine_pair {A B} (l : list A) : forall (m : list B) j a b, nth_error l j = Some a -> nth_error m j = Some b -> nth_error (combine l m) j = Some (a, b).
Proof. induction l as [|x l IH]; intros m j a b H1 H2; [destruct j; discriminate H1|]. destruct m as [|y m]; [destruct j; discriminate H2|]. destruct j; cbn in *; [congruence|auto]. Qed.

(* Whatever was fitted before the call: the panel of the classifier j for the data set k is the one in row k and column j + 2 of the
   grid. It shows the classifier fitted on that data set, compared with the first classifier fitted on the same one; the titles are on the
   first row; and all panels are drawn with the same levels, those given if a list was given. *)
Theorem C160_panels : forall ms names c0 clfs datasets levels, List.length names = S (List.length clfs) ->
  (forall ds, In ds datasets -> loss (fit c0 (fst ds)) (snd ds) <> 0) ->
  exists ps l, plot ms names (c0 :: clfs) datasets levels = Ok ps /\ List.length ps = (List.length datasets * List.length names)%nat /\
  (forall l', levels = Levels l' -> datasets <> [] -> l = l') /\
  forall k j ds name clf, nth_error datasets k = Some ds -> nth_error names j = Some name -> nth_error (c0 :: clfs) j = Some clf ->
    exists p, nth_error ps (k * List.length names + j) = Some p /\ shows p ds c0 clf /\ p_levels p = l /\ p_title p = (if Nat.eqb k 0 then Some name else None) /\
      let cols := (List.length names + 2)%nat in (1 <= p_index p <= List.length datasets * cols)%nat /\ ((p_index p - 1) / cols = k)%nat /\ ((p_index p - 1) mod cols = j + 2)%nat.
Proof.
  intros ms names c0 clfs datasets levels Hlen Hl. destruct names as [|n0 names]; [discriminate Hlen|]. injection Hlen as Hlen.
  set (l := match datasets with [] => [] | ds :: _ => contour levels (fit c0 (fst ds)) ds end).
  set (s := {| s_models := ms; s_levels := levels; s_i := 1 |}).
  destruct (rows_ok c0 n0 (combine names clfs) l datasets true s Hl) as (ps & s' & E & Len & All).
  { intros ds H. unfold l. destruct datasets; [discriminate H|]. injection H as ->. reflexivity. }
  assert (Lc : List.length (combine names clfs) = List.length names) by (rewrite combine_length; lia). rewrite Lc in *.
  exists ps, l. unfold ClassComp_Model.plot. cbn [List.length hd]. rewrite Hlen, Nat.eqb_refl. cbn [combine]. fold s. rewrite E. cbn [bind]. split; [reflexivity|]. split; [rewrite <- Hlen; exact Len|]. split.
  { intros l' -> Hd. unfold l. destruct datasets; [congruence|]. apply contour_given. }
  intros k j ds name clf Hk Hn Hc. rewrite <- Hlen.
  assert (Hp : nth_error ((n0, c0) :: combine names clfs) j = Some (name, clf)) by (exact (nth_error_combine_pair (n0 :: names) (c0 :: clfs) j name clf Hn Hc)).
  destruct (All k j ds name clf Hk Hp) as (p & Q1 & Q2 & Q3 & Q4 & Q5). exists p. split; [exact Q1|]. split; [exact Q2|]. split; [exact Q5|]. split; [exact Q4|].
  assert (Kb : (k < List.length datasets)%nat) by (apply nth_error_Some; rewrite Hk; discriminate). assert (Jb : (j < S (List.length names))%nat) by (change (j < List.length (n0 :: names))%nat; apply nth_error_Some; rewrite Hn; discriminate).
  cbn [s_i s] in Q3. cbv zeta. rewrite Q3. split; [split; [lia|nia]|].
  replace (1 + k * (S (List.length names) + 2) + 2 + j - 1)%nat with ((2 + j) + k * (S (List.length names) + 2))%nat by lia.
  split; [rewrite Nat.div_add by lia; rewrite Nat.div_small by lia; reflexivity|rewrite Nat.mod_add by lia; rewrite Nat.mod_small by lia; lia].
Qed.
(* the first classifier is shown with a gap of 0% on every data set *)
Theorem C160_reference_gap : forall p ds c0, loss (fit c0 (fst ds)) (snd ds) <> 0 -> shows p ds c0 c0 -> snd (p_text p) = 0%Z.
Proof.
  intros p ds c0 Hl H. unfold shows in H. cbv zeta in H. rewrite H. cbn [snd]. apply C160_percent. unfold Rminus. rewrite Rplus_opp_r. unfold Rdiv. rewrite Rmult_0_l, Rabs_R0. lra.
Qed.
(* no figure without as many names as classifiers *)
Theorem C160_names_required : forall ms names clfs datasets levels, List.length names <> List.length clfs -> plot ms names clfs datasets levels = Raise AssertionError.
Proof. intros ms names clfs datasets levels H. unfold ClassComp_Model.plot. apply Nat.eqb_neq in H. rewrite H. reflexivity. Qed.
End Panels.
Print Assumptions C160_panels.
Print Assumptions C160_reference_gap.
Print Assumptions C160_names_required.

(* two classifiers on two data sets: the model is the sum of the number of the object and the data, its loss one more than that *)
Definition toy_plot := plot (fun c (d : nat) => (c + d)%nat) (fun m (t : nat) => 1 / 2) (fun m t => 1 / 4) (fun m t => INR m + 1) (fun a m ds => match a with Levels l => l | Count n => [INR m] end).
Example C160_panels_case : exists ps, toy_plot (fun _ => None) ["a"; "b"]%string [0; 1]%nat [(0, 0); (1, 1)]%nat (Count 10) = Ok ps /\ List.length ps = 4%nat /\
  map p_index ps = [3; 4; 7; 8]%nat /\ map p_title ps = [Some "a"; Some "b"; None; None]%string.
Proof.
  assert (Z : forall n : nat, INR n + 1 <> 0) by (intros n; pose proof (pos_INR n); lra).
  destruct (C160_panels nat nat nat (fun c d => (c + d)%nat) (fun m t => 1 / 2) (fun m t => 1 / 4) (fun m t => INR m + 1) (fun a m ds => match a with Levels l => l | Count n => [INR m] end)
    ltac:(reflexivity) (fun _ => None) ["a"; "b"]%string 0%nat [1]%nat [(0, 0); (1, 1)]%nat (Count 10) eq_refl) as (ps & l & E & Len & _); [intros ds _; apply Z|].
  exists ps. split; [exact E|]. split; [exact Len|].
  assert (F : forall n, Reqb (INR n + 1) 0 = false) by (intros n; destruct (Reqb (INR n + 1) 0) eqn:B; [apply Reqb_true in B; exfalso; exact (Z n B)|reflexivity]).
  unfold plot in E. do 8 (cbn -[percent INR Reqb] in E; unfold loss_gap in E; rewrite ?F in E). injection E as <-. split; reflexivity.
Qed.
Example C160_reference_gap_case : forall ds : nat * nat, INR (0 + fst ds) + 1 <> 0.
Proof. intros ds. pose proof (pos_INR (0 + fst ds)). lra. Qed.
Example C160_names_required_case : toy_plot (fun _ => None) ["a"]%string [0; 1]%nat [(0, 0)]%nat (Count 10) = Raise AssertionError.
Proof. reflexivity. Qed.

(* ---------- C160: the titles of the study of epsilon ---------- *)
(* a title tells the truth about a classifier: the radius and the epsilon it gives are the classifier's *)
Definition true_radius (t : title) (c : R * option R) : Prop := forall r, t_rho t = Some r -> fst c = r.
Definition true_epsilon (t : title) (c : R * option R) : Prop := forall e, t_eps t = Some e -> snd c = Some (powerRZ 10 e).
Lemma tenth i : Rpower 10 (-3 + INR i * ((1 - -3) / INR 4)) = powerRZ 10 (Z.of_nat i - 3).
Proof. rewrite powerRZ_Rpower by lra. f_equal. rewrite minus_IZR, <- INR_IZR_INZ. cbn [INR]. lra. Qed.
Theorem C160_epsilon_titles : List.length study_titles = List.length study_classifiers /\
  forall j t c, nth_error study_titles j = Some t -> nth_error study_classifiers j = Some c -> true_epsilon t c.
Proof.
  split; [reflexivity|]. intros j t c Ht Hc. unfold study_classifiers, study_titles in *.
  destruct j as [|j]; cbn [nth_error] in *; [injection Ht as <-; intros e He; discriminate He|].
  unfold study_regs, logspace in Hc. rewrite map_map in Hc. change (5 - 1)%nat with 4%nat in Hc. cbn [seq map] in Hc, Ht. rewrite !tenth in Hc.
  do 5 (destruct j as [|j]; cbn [nth_error] in *; [injection Ht as <-; injection Hc as <-; intros e He; cbn [t_eps] in He; injection He as <-; reflexivity|]). destruct j; discriminate Hc.
Qed.
Print Assumptions C160_epsilon_titles.
Example C160_epsilon_titles_case : exists t c, nth_error study_titles 5 = Some t /\ nth_error study_classifiers 5 = Some c /\ t_eps t = Some 1%Z /\ snd c = Some 10.
Proof.
  eexists _, _. split; [reflexivity|]. split; [reflexivity|]. split; [reflexivity|]. cbn [snd]. f_equal. change (5 - 1)%nat with 4%nat. rewrite tenth. change (Z.of_nat 4 - 3)%Z with 1%Z. apply powerRZ_1.
Qed.
(* five of the six titles say rho = 32; the five classifiers have the radius 1 *)
Theorem C160_radius_titles_refuted : exists j t c, nth_error study_titles j = Some t /\ nth_error study_classifiers j = Some c /\ t_rho t = Some 32 /\ fst c = 1 /\ ~ true_radius t c.
Proof.
  exists 1%nat. eexists _, _. split; [reflexivity|]. split; [reflexivity|]. split; [reflexivity|]. split; [reflexivity|]. intros H. specialize (H 32 eq_refl). cbn in H. unfold study_rho in H. lra.
Qed.
Print Assumptions C160_radius_titles_refuted.

(* ---------- C161: the radii of the examples and the shifts they stand for ---------- *)
(* specification: two random pairs g and h on the same space (any coupling), each coordinate of mean square 1, as standard normal ones *)
Definition sq (x : R) : R := x * x.
Definition dist2 (a b : R * R) : R := sq (fst a - fst b) + sq (snd a - snd b).
Record coupled {X} (I : (X -> R) -> Prop) (E : (X -> R) -> R) (g h : X -> R * R) : Prop := {
  c_exp : expectation I E;
  c_g1 : I (fun x => sq (fst (g x))) /\ E (fun x => sq (fst (g x))) = 1; c_g2 : I (fun x => sq (snd (g x))) /\ E (fun x => sq (snd (g x))) = 1;
  c_h1 : I (fun x => sq (fst (h x))) /\ E (fun x => sq (fst (h x))) = 1; c_h2 : I (fun x => sq (snd (h x))) /\ E (fun x => sq (snd (h x))) = 1;
  c_1 : I (fun x => fst (g x) * fst (h x)); c_2 : I (fun x => snd (g x) * snd (h x)) }.
Lemma E_same {X} (I : (X -> R) -> Prop) E (H : expectation I E) f g : (forall x, f x = g x) -> I f -> E f = E g.
Proof. intros Hx Hf. assert (Hg : I g) by (exact (e_ext _ _ H f g Hx Hf)). apply Rle_antisym; apply (e_mono _ _ H); auto; intros x; rewrite Hx; lra. Qed.
(* one coordinate: E (s a - t b)^2 = s^2 - 2 s t E (a b) + t^2 and E (a b) <= 1 *)
Lemma one_axis {X} (I : (X -> R) -> Prop) E (H : expectation I E) (a b : X -> R) s t : I (fun x => sq (a x)) -> E (fun x => sq (a x)) = 1 -> I (fun x => sq (b x)) -> E (fun x => sq (b x)) = 1 ->
  I (fun x => a x * b x) -> I (fun x => sq (s * a x - t * b x)) /\ E (fun x => sq (s * a x - t * b x)) = sq s - 2 * s * t * E (fun x => a x * b x) + sq t /\ E (fun x => a x * b x) <= 1.
Proof.
  intros Ia Ea Ib Eb Ip.
  destruct (e_scal _ _ H (sq s) _ Ia) as [I1 E1]. destruct (e_scal _ _ H (sq t) _ Ib) as [I2 E2]. destruct (e_scal _ _ H (- (2 * s * t)) _ Ip) as [I3 E3].
  destruct (e_add _ _ H _ _ I1 I3) as [I4 E4]. destruct (e_add _ _ H _ _ I4 I2) as [I5 E5]. cbv beta in *.
  assert (Q : forall x, sq s * sq (a x) + - (2 * s * t) * (a x * b x) + sq t * sq (b x) = sq (s * a x - t * b x)) by (intros x; unfold sq; ring).
  split; [exact (e_ext _ _ H _ _ Q I5)|]. split.
  - rewrite <- (E_same I E H _ _ Q I5), E5, E4, E1, E2, E3, Ea, Eb. ring.
  - destruct (e_add _ _ H _ _ Ia Ib) as [I6 E6]. destruct (e_scal _ _ H (1 / 2) _ I6) as [I7 E7]. cbv beta in *.
    assert (L : E (fun x => a x * b x) <= E (fun x => 1 / 2 * (sq (a x) + sq (b x)))) by (apply (e_mono _ _ H); auto; intros x; unfold sq; pose proof (Rle_0_sqr (a x - b x)) as P; unfold Rsqr in P; lra).
    rewrite E7, E6, Ea, Eb in L. lra.
Qed.
Lemma both_axes {X} (I : (X -> R) -> Prop) E g h (H : coupled I E g h) s1 t1 s2 t2 :
  E (fun x => dist2 (s1 * fst (g x), s2 * snd (g x)) (t1 * fst (h x), t2 * snd (h x))) =
    sq s1 - 2 * s1 * t1 * E (fun x => fst (g x) * fst (h x)) + sq t1 + (sq s2 - 2 * s2 * t2 * E (fun x => snd (g x) * snd (h x)) + sq t2) /\
  E (fun x => fst (g x) * fst (h x)) <= 1 /\ E (fun x => snd (g x) * snd (h x)) <= 1.
Proof.
  destruct H as [Ex [Ig1 Eg1] [Ig2 Eg2] [Ih1 Eh1] [Ih2 Eh2] I1 I2].
  destruct (one_axis I E Ex (fun x => fst (g x)) (fun x => fst (h x)) s1 t1 Ig1 Eg1 Ih1 Eh1 I1) as (J1 & F1 & B1). destruct (one_axis I E Ex (fun x => snd (g x)) (fun x => snd (h x)) s2 t2 Ig2 Eg2 Ih2 Eh2 I2) as (J2 & F2 & B2).
  split; [|split; assumption]. unfold dist2. cbn [fst snd]. destruct (e_add _ _ Ex _ _ J1 J2) as [_ Q]. cbv beta in Q. rewrite Q, F1, F2. reflexivity.
Qed.
(* Moons: for every coupling of the noise of the training data with the noise of the test data the mean squared distance is at least
   2 (s1 - s2)^2, and moving each point in proportion has exactly that cost. The Wasserstein distance of order 2 is sqrt 2 |s1 - s2|. *)
Theorem C161_moons_shift : forall X (I : (X -> R) -> Prop) E g h s1 s2, coupled I E g h -> 0 <= s1 -> 0 <= s2 ->
  2 * sq (s1 - s2) <= E (fun x => dist2 (train_noise (s1, s2) (g x)) (test_noise (s1, s2) (h x))) /\
  (coupled I E g g -> E (fun x => dist2 (train_noise (s1, s2) (g x)) (test_noise (s1, s2) (g x))) = 2 * sq (s1 - s2)).
Proof.
  intros X I E g h s1 s2 H H1 H2. unfold train_noise, test_noise. cbn [fst snd]. split.
  - destruct (both_axes I E g h H s1 s2 s2 s1) as (Q & B1 & B2). rewrite Q. pose proof (Rmult_le_pos _ _ H1 H2). unfold sq. nra.
  - intros Hg. destruct (both_axes I E g g Hg s1 s2 s2 s1) as (Q & _). rewrite Q. pose proof (proj2 (c_g1 _ _ _ _ Hg)) as A. pose proof (proj2 (c_g2 _ _ _ _ Hg)) as B. unfold sq in A, B. rewrite A, B. unfold sq. ring.
Qed.
Print Assumptions C161_moons_shift.
(* the same for the blobs, class by class *)
Theorem C161_blobs_shift : forall X (I : (X -> R) -> Prop) E g h s1 s2, coupled I E g h -> 0 <= s1 -> 0 <= s2 ->
  2 * sq (s1 - s2) <= E (fun x => dist2 (blob_noise s1 (g x)) (blob_noise s2 (h x))) /\
  (coupled I E g g -> E (fun x => dist2 (blob_noise s1 (g x)) (blob_noise s2 (g x))) = 2 * sq (s1 - s2)).
Proof.
  intros X I E g h s1 s2 H H1 H2. unfold blob_noise. split.
  - destruct (both_axes I E g h H s1 s2 s1 s2) as (Q & B1 & B2). rewrite Q. pose proof (Rmult_le_pos _ _ H1 H2). unfold sq. nra.
  - intros Hg. destruct (both_axes I E g g Hg s1 s2 s1 s2) as (Q & _). rewrite Q. pose proof (proj2 (c_g1 _ _ _ _ Hg)) as A. pose proof (proj2 (c_g2 _ _ _ _ Hg)) as B. unfold sq in A, B. rewrite A, B. unfold sq. ring.
Qed.
Print Assumptions C161_blobs_shift.

(* "0.2 ... is the right one for the 2-Wasserstein distance between the variances we picked" (:402-403): it is the distance for neither data
   set. On the first the shift is less than half of it, on the second no plan within the radius carries the training noise to the test noise. *)
Theorem C161_moons_radius_refuted : exists a b, moons_sdevs = [a; b] /\ forall X (I : (X -> R) -> Prop) E g h, coupled I E g h ->
  (coupled I E g g -> E (fun x => dist2 (train_noise a (g x)) (test_noise a (g x))) < sq (moons_rho / 2)) /\
  sq (2 * moons_rho) < E (fun x => dist2 (train_noise b (g x)) (test_noise b (h x))).
Proof.
  exists (5 / 100, 1 / 10), (1 / 10, 5 / 10). split; [reflexivity|]. intros X I E g h H. split.
  - intros Hg. rewrite (proj2 (C161_moons_shift X I E g h (5 / 100) (1 / 10) H ltac:(lra) ltac:(lra)) Hg). unfold sq, moons_rho. lra.
  - eapply Rlt_le_trans; [|apply (C161_moons_shift X I E g h (1 / 10) (5 / 10) H); lra]. unfold sq, moons_rho. lra.
Qed.
Print Assumptions C161_moons_radius_refuted.
(* the blobs: the shift of each data set is well within the radius 32, which is more than five times the distance *)
Theorem C161_blobs_radius : forall sd X (I : (X -> R) -> Prop) E g, In sd blobs_sdevs -> coupled I E g g ->
  E (fun x => dist2 (blob_noise (fst sd) (g x)) (blob_noise (snd sd) (g x))) < sq (blobs_rho / 5).
Proof.
  intros sd X I E g Hs H. destruct Hs as [<-|[<-|[]]]; cbn [fst snd].
  - rewrite (proj2 (C161_blobs_shift X I E g g (25 / 10) 5 H ltac:(lra) ltac:(lra)) H). unfold sq, blobs_rho. lra.
  - rewrite (proj2 (C161_blobs_shift X I E g g 1 5 H ltac:(lra) ltac:(lra)) H). unfold sq, blobs_rho. lra.
Qed.
Print Assumptions C161_blobs_radius.
(* a coupling: two fair signs, each pair with itself *)
Definition signs (x : bool * bool) : R * R := (if fst x then 1 else -1, if snd x then 1 else -1).
Definition fair (f : bool * bool -> R) : R := (f (true, true) + f (true, false) + f (false, true) + f (false, false)) / 4.
Example C161_case : coupled (fun _ => True) fair signs signs.
Proof.
  split; [split|..]; unfold fair; cbn; try tauto; try (split; [exact Logic.I|]); intros; try (split; [exact Logic.I|]); unfold sq; try lra.
  pose proof (H1 (true, true)). pose proof (H1 (true, false)). pose proof (H1 (false, true)). pose proof (H1 (false, false)). lra.
Qed.
