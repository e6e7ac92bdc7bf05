(* Multipliers for finitely many linear inequalities under a sublinear objective: if a linear form g is at most a sublinear function N
   on the polyhedral cone {f <= 0}, then g <= N + sum of non-negative multiples of the f, everywhere. With N = 0 this is Farkas's lemma.
   No finite dimension is needed. Used for the portfolio programme with side constraints. *)
From Coq Require Import Reals List Bool Lra Lia Arith Classical.
Import ListNotations.
Local Open Scope R_scope.


Section Space.
Context {V : Type}.
Variable add : V -> V -> V.
Variable scal : R -> V -> V.
Definition linear (f : V -> R) : Prop := (forall x y, f (add x y) = f x + f y) /\ (forall a x, f (scal a x) = a * f x).
Definition sublinear (N : V -> R) : Prop := (forall x y, N (add x y) <= N x + N y) /\ (forall a x, 0 <= a -> N (scal a x) = a * N x).

Inductive cone (P : (V -> R) -> Prop) : (V -> R) -> Prop :=
| cone_0 p : (forall x, p x = 0) -> cone P p
| cone_s f y p q : P f -> 0 <= y -> cone P p -> (forall x, q x = y * f x + p x) -> cone P q.
Inductive span (P : (V -> R) -> Prop) : (V -> R) -> Prop :=
| span_0 p : (forall x, p x = 0) -> span P p
| span_s f y p q : P f -> span P p -> (forall x, q x = y * f x + p x) -> span P q.

Lemma cone_mono (P Q : (V -> R) -> Prop) p : (forall f, P f -> Q f) -> cone P p -> cone Q p.
Proof. intros H. induction 1; [apply cone_0; assumption|eapply cone_s; eauto]. Qed.
Lemma cone_ext P p q : cone P p -> (forall x, q x = p x) -> cone P q.
Proof. intros C. revert q. induction C as [p H|f y p q' Pf Hy C IH E]; intros q H'; [apply cone_0; intros; rewrite H'; apply H|]. eapply cone_s; eauto. intros x. rewrite H'. apply E. Qed.
Lemma cone_add P p q : cone P p -> cone P q -> cone P (fun x => p x + q x).
Proof.
  intros C D. induction C as [p H|f y p q' Pf Hy C IH E]; [eapply cone_ext; [exact D|]; intros x; cbn; rewrite H; ring|].
  eapply cone_s; [exact Pf|exact Hy|exact IH|]. intros x. cbn. rewrite E. ring.
Qed.
Lemma cone_scal P p a : 0 <= a -> cone P p -> cone P (fun x => a * p x).
Proof.
  intros Ha C. induction C as [p H|f y p q' Pf Hy C IH E]; [apply cone_0; intros; rewrite H; ring|].
  eapply (cone_s P f (a * y)); [exact Pf|apply Rmult_le_pos; assumption|exact IH|]. intros x. cbn. rewrite E. ring.
Qed.
Lemma cone_one (P : (V -> R) -> Prop) f a : P f -> 0 <= a -> cone P (fun x => a * f x).
Proof. intros H Ha. eapply (cone_s P f a (fun _ => 0)); [exact H|exact Ha|apply cone_0; reflexivity|]. intros; cbn; ring. Qed.
Lemma span_ext P p q : span P p -> (forall x, q x = p x) -> span P q.
Proof. intros C. revert q. induction C as [p H|f y p q' Pf C IH E]; intros q H'; [apply span_0; intros; rewrite H'; apply H|]. eapply span_s; eauto. intros x. rewrite H'. apply E. Qed.
Lemma span_add P p q : span P p -> span P q -> span P (fun x => p x + q x).
Proof.
  intros C D. induction C as [p H|f y p q' Pf C IH E]; [eapply span_ext; [exact D|]; intros x; cbn; rewrite H; ring|].
  eapply (span_s P f y); [exact Pf|exact IH|]. intros x. cbn. rewrite E. ring.
Qed.
Lemma span_scal P p a : span P p -> span P (fun x => a * p x).
Proof.
  intros C. induction C as [p H|f y p q' Pf C IH E]; [apply span_0; intros; rewrite H; ring|].
  eapply (span_s P f (a * y)); [exact Pf|exact IH|]. intros x. cbn. rewrite E. ring.
Qed.
Lemma span_cons e E p : span (fun f => In f (e :: E)) p -> exists w p0, span (fun f => In f E) p0 /\ forall x, p x = w * e x + p0 x.
Proof.
  induction 1 as [p H|f y p q Pf C (w & p0 & S & K) E']; [exists 0, (fun _ => 0); split; [apply span_0; reflexivity|intros; rewrite H; ring]|].
  destruct Pf as [<-|Pf].
  - exists (y + w), p0. split; [exact S|]. intros x. rewrite E', K. ring.
  - exists w, (fun x => y * f x + p0 x). split; [eapply span_s; [exact Pf|exact S|reflexivity]|]. intros x. rewrite E', K. ring.
Qed.
Lemma span_zero (P : (V -> R) -> Prop) p x : (forall e, P e -> e x = 0) -> span P p -> p x = 0.
Proof. intros H. induction 1 as [p K|f y p q Pf C IH E]; [apply K|]. rewrite E, (H f Pf), IH. ring. Qed.
Lemma cone_neg (P : (V -> R) -> Prop) p x : (forall f, P f -> f x <= 0) -> cone P p -> p x <= 0.
Proof. intros H. induction 1 as [p K|f y p q Pf Hy C IH E]; [rewrite K; lra|]. rewrite E. specialize (H f Pf). nra. Qed.
Lemma cone_positive (P : (V -> R) -> Prop) p : cone P p -> (forall x, p x = 0) \/ exists f c p', P f /\ 0 < c /\ cone P p' /\ forall x, p x = c * f x + p' x.
Proof.
  induction 1 as [p K|f y p q Pf Hy C IH E]; [left; exact K|]. destruct (Rle_lt_or_eq_dec 0 y Hy) as [L|<-].
  - right. exists f, y, p. auto.
  - destruct IH as [Z|(f' & c & p' & A & B & D & F)]; [left; intros x; rewrite E, Z; ring|]. right. exists f', c, p'. repeat split; auto. intros x. rewrite E, F. ring.
Qed.
Lemma span_linear (P : (V -> R) -> Prop) p : (forall e, P e -> linear e) -> span P p -> linear p.
Proof.
  intros H. induction 1 as [p K|f y p q Pf C [I1 I2] E]; [split; intros; rewrite !K; ring|]. destruct (H f Pf) as [L1 L2].
  split; intros; rewrite !E; [rewrite L1, I1|rewrite L2, I2]; ring.
Qed.
Lemma cone_linear (P : (V -> R) -> Prop) p : (forall e, P e -> linear e) -> cone P p -> linear p.
Proof.
  intros H. induction 1 as [p K|f y p q Pf Hy C [I1 I2] E]; [split; intros; rewrite !K; ring|]. destruct (H f Pf) as [L1 L2].
  split; intros; rewrite !E; [rewrite L1, I1|rewrite L2, I2]; ring.
Qed.
Lemma linear_comb f g a : linear f -> linear g -> linear (fun x => f x - a * g x).
Proof. intros [A B] [C D]. split; intros; [rewrite A, C|rewrite B, D]; ring. Qed.

(* ---------- one multiplier ---------- *)
(* an inequality that is strict somewhere in the cone D *)
Lemma ineq_mult (D : V -> Prop) f g N : (forall x y, D x -> D y -> D (add x y)) -> (forall a x, 0 <= a -> D x -> D (scal a x)) ->
  linear f -> linear g -> sublinear N -> (exists z, D z /\ f z < 0) -> (forall x, D x -> f x <= 0 -> g x <= N x) ->
  exists y, 0 <= y /\ forall x, D x -> g x <= N x + y * f x.
Proof.
  intros Da Ds [fa fs] [ga gs] [Na Ns] (z0 & Dz & Fz) H.
  (* every x with f > 0 and every z with f < 0 *)
  assert (K : forall x z, D x -> D z -> 0 < f x -> f z < 0 -> (g x - N x) / f x <= (N z - g z) / - f z).
  { intros x z Dx Dz' Fx Fz'. set (a := - f z). set (b := f x). assert (0 < a) by (unfold a; lra). assert (0 < b) by exact Fx.
    assert (Q : g (add (scal a x) (scal b z)) <= N (add (scal a x) (scal b z))).
    { apply H; [apply Da; apply Ds; auto; lra|]. rewrite fa, !fs. unfold a, b. lra. }
    rewrite ga, !gs in Q. pose proof (Na (scal a x) (scal b z)) as T. rewrite !Ns in T by lra.
    apply (Rmult_le_reg_r (a * b)); [nra|]. replace ((g x - N x) / b * (a * b)) with (a * (g x - N x)) by (field; lra).
    replace ((N z - g z) / a * (a * b)) with (b * (N z - g z)) by (field; lra). lra. }
  set (S := fun r => r = 0 \/ exists x, D x /\ 0 < f x /\ r = (g x - N x) / f x).
  assert (B : forall r z, S r -> D z -> f z < 0 -> r <= (N z - g z) / - f z).
  { intros r z [->|(x & Dx & Fx & ->)] Dz' Fz'; [|apply K; assumption]. apply Rle_mult_inv_pos; [|lra]. specialize (H z Dz' ltac:(lra)). lra. }
  destruct (completeness S) as (y & U & L).
  - exists ((N z0 - g z0) / - f z0). intros r Sr. apply B; assumption.
  - exists 0. left. reflexivity.
  - exists y. split; [apply U; left; reflexivity|]. intros x Dx. destruct (Rtotal_order (f x) 0) as [C|[C|C]].
    + assert (y <= (N x - g x) / - f x) by (apply L; intros r Sr; apply B; assumption).
      assert (y * - f x <= N x - g x). { apply (Rmult_le_compat_r (- f x)) in H0; [|lra]. replace ((N x - g x) / - f x * - f x) with (N x - g x) in H0 by (field; lra). exact H0. } lra.
    + rewrite C. specialize (H x Dx ltac:(lra)). lra.
    + assert ((g x - N x) / f x <= y) by (apply U; right; exists x; auto).
      apply (Rmult_le_compat_r (f x)) in H0; [|lra]. replace ((g x - N x) / f x * f x) with (g x - N x) in H0 by (field; lra). lra.
Qed.
(* an equation in a subspace D *)
Lemma eq_mult (D : V -> Prop) f g N : (forall x y, D x -> D y -> D (add x y)) -> (forall a x, D x -> D (scal a x)) ->
  linear f -> linear g -> sublinear N -> (forall x, D x -> f x = 0 -> g x <= N x) -> exists y, forall x, D x -> g x <= N x + y * f x.
Proof.
  intros Da Ds Lf Lg LN H. destruct (classic (exists x, D x /\ f x <> 0)) as [(x0 & Dx0 & Fx0)|No].
  - (* g is at most N on the half-space where f < 0 after subtracting a multiple of f: apply the previous proof's separation directly *)
    destruct Lf as [fa fs]. destruct Lg as [ga gs]. destruct LN as [Na Ns].
    assert (K : forall x z, D x -> D z -> 0 < f x -> f z < 0 -> (g x - N x) / f x <= (N z - g z) / - f z).
    { intros x z Dx Dz' Fx Fz'. set (a := - f z). set (b := f x). assert (0 < a) by (unfold a; lra). assert (0 < b) by exact Fx.
      assert (Q : g (add (scal a x) (scal b z)) <= N (add (scal a x) (scal b z))).
      { apply H; [apply Da; apply Ds; auto; lra|]. rewrite fa, !fs. unfold a, b. lra. }
      rewrite ga, !gs in Q. pose proof (Na (scal a x) (scal b z)) as T. rewrite !Ns in T by lra.
      apply (Rmult_le_reg_r (a * b)); [nra|]. replace ((g x - N x) / b * (a * b)) with (a * (g x - N x)) by (field; lra).
      replace ((N z - g z) / a * (a * b)) with (b * (N z - g z)) by (field; lra). lra. }
    assert (P : exists p, D p /\ 0 < f p).
    { destruct (Rtotal_order (f x0) 0) as [C|[C|C]]; [|contradiction|exists x0; auto]. exists (scal (-1) x0). split; [apply Ds; exact Dx0|]. rewrite fs. lra. }
    assert (M : exists z, D z /\ f z < 0). { destruct P as (q & Dq & Fq). exists (scal (-1) q). split; [apply Ds; exact Dq|]. rewrite fs. lra. }
    destruct P as (q & Dq & Fq). destruct M as (z0 & Dz & Fz).
    set (S := fun r => exists x, D x /\ 0 < f x /\ r = (g x - N x) / f x).
    assert (B : forall r z, S r -> D z -> f z < 0 -> r <= (N z - g z) / - f z) by (intros r z (x & Dx & Fx & ->) Dz' Fz'; apply K; assumption).
    destruct (completeness S) as (y & U & L).
    + exists ((N z0 - g z0) / - f z0). intros r Sr. apply B; assumption.
    + exists ((g q - N q) / f q). exists q. auto.
    + exists y. intros x Dx. destruct (Rtotal_order (f x) 0) as [C|[C|C]].
      * assert (y <= (N x - g x) / - f x) by (apply L; intros r Sr; apply B; assumption).
        apply (Rmult_le_compat_r (- f x)) in H0; [|lra]. replace ((N x - g x) / - f x * - f x) with (N x - g x) in H0 by (field; lra). lra.
      * rewrite C. specialize (H x Dx C). lra.
      * assert ((g x - N x) / f x <= y) by (apply U; exists x; auto).
        apply (Rmult_le_compat_r (f x)) in H0; [|lra]. replace ((g x - N x) / f x * f x) with (g x - N x) in H0 by (field; lra). lra.
  - exists 0. intros x Dx. assert (Z : f x = 0) by (apply NNPP; intros C; apply No; exists x; auto). specialize (H x Dx Z). lra.
Qed.

(* ---------- all of them ---------- *)
Lemma equations E : (forall e, In e E -> linear e) -> forall g N, linear g -> sublinear N -> (forall x, (forall e, In e E -> e x = 0) -> g x <= N x) ->
  exists p, span (fun e => In e E) p /\ forall x, g x <= N x + p x.
Proof.
  induction E as [|e E IH]; intros LE g N Lg LN H; [exists (fun _ => 0); split; [apply span_0; reflexivity|intros x; rewrite Rplus_0_r; apply H; contradiction]|].
  destruct (eq_mult (fun x => forall e', In e' E -> e' x = 0) e g N) as (y & Hy); auto.
  - intros x y Hx Hy e' He. rewrite (proj1 (LE e' (or_intror He))), Hx, Hy by exact He. ring.
  - intros a x Hx e' He. rewrite (proj2 (LE e' (or_intror He))), Hx by exact He. ring.
  - apply LE. left. reflexivity.
  - intros x Hx Hx0. apply H. intros e' [<-|He]; auto.
  - destruct (IH (fun e' He => LE e' (or_intror He)) (fun x => g x - y * e x) N) as (p & Sp & Hp); [apply linear_comb; [exact Lg|apply LE; left; reflexivity]|exact LN| |].
    + intros x Hx. specialize (Hy x Hx). lra.
    + exists (fun x => y * e x + p x). split.
      * eapply (span_s _ e y p); [left; reflexivity| |reflexivity]. clear -Sp. induction Sp as [p K|f w p q Pf C IH0 K]; [apply span_0; exact K|eapply span_s; [right; exact Pf|exact IH0|exact K]].
      * intros x. specialize (Hp x). lra.
Qed.
Lemma sublinear0 : sublinear (fun _ => 0).
Proof. split; intros; lra. Qed.

Lemma multipliers_eq : forall k F, (length F <= k)%nat -> (forall f, In f F -> linear f) -> forall E, (forall e, In e E -> linear e) ->
  forall g N, linear g -> sublinear N -> (forall x, (forall e, In e E -> e x = 0) -> (forall f, In f F -> f x <= 0) -> g x <= N x) ->
  exists c s, cone (fun f => In f F) c /\ span (fun e => In e E) s /\ forall x, g x <= N x + c x + s x.
Proof.
  induction k as [|k IH]; intros [|f F] Lk LF E LE g N Lg LN H; cbn in Lk; try lia.
  1, 2: destruct (equations E LE g N Lg LN) as (p & Sp & Hp); [intros x Hx; apply H; [exact Hx|contradiction]|];
        exists (fun _ => 0), p; split; [apply cone_0; reflexivity|split; [exact Sp|intros x; specialize (Hp x); lra]].
  set (D := fun x => (forall e, In e E -> e x = 0) /\ (forall f', In f' F -> f' x <= 0)).
  assert (LF' : forall f', In f' F -> linear f') by (intros; apply LF; right; assumption). assert (Lf : linear f) by (apply LF; left; reflexivity).
  destruct (classic (exists z, D z /\ f z < 0)) as [Z|NZ].
  - destruct (ineq_mult D f g N) as (y & Hy & Y); auto.
    + intros x y [A B] [A' B']. split; intros e He; [rewrite (proj1 (LE e He)), A, A' by exact He; ring|]. rewrite (proj1 (LF' e He)). specialize (B e He). specialize (B' e He). lra.
    + intros a x Ha [A B]. split; intros e He; [rewrite (proj2 (LE e He)), A by exact He; ring|]. rewrite (proj2 (LF' e He)). specialize (B e He). nra.
    + intros x [A B] C. apply H; [exact A|]. intros f' [<-|Hf]; auto.
    + destruct (IH F ltac:(lia) LF' E LE (fun x => g x - y * f x) N) as (c & s & Cc & Ss & K); [apply linear_comb; assumption|exact LN| |].
      * intros x A B. specialize (Y x (conj A B)). lra.
      * exists (fun x => y * f x + c x), s. split; [|split; [exact Ss|intros x; specialize (K x); lra]].
        eapply (cone_s _ f y c); [left; reflexivity|exact Hy| |reflexivity]. eapply cone_mono; [|exact Cc]. intros; right; assumption.
  - (* f >= 0 on D: an identity - f = c + s *)
    destruct (IH F ltac:(lia) LF' E LE (fun x => 0 - 1 * f x) (fun _ => 0)) as (c & s & Cc & Ss & K).
    { destruct Lf as [A B]. split; intros; [rewrite A|rewrite B]; ring. } { exact sublinear0. }
    { intros x A B. destruct (Rle_dec 0 (f x)); [lra|]. exfalso. apply NZ. exists x. split; [split; assumption|lra]. }
    assert (Id : forall x, f x + c x + s x = 0).
    { intros x. assert (Lc : linear c) by (eapply cone_linear; [|exact Cc]; exact LF'). assert (Ls : linear s) by (eapply span_linear; [|exact Ss]; exact LE).
      pose proof (K x) as K1. pose proof (K (scal (-1) x)) as K2. rewrite (proj2 Lf), (proj2 Lc), (proj2 Ls) in K2. lra. }
    destruct (cone_positive _ c Cc) as [C0|(fj & a & c' & Hj & Ha & Cc' & Ec)].
    + (* f vanishes with the equations *)
      destruct (IH F ltac:(lia) LF' E LE g N Lg LN) as (c1 & s1 & Cc1 & Ss1 & K1).
      * intros x A B. apply H; [exact A|]. intros f' [<-|Hf]; [|auto]. specialize (Id x). rewrite C0, (span_zero _ s x A Ss) in Id. lra.
      * exists c1, s1. split; [|auto]. eapply cone_mono; [|exact Cc1]. intros; right; assumption.
    + (* fj vanishes on the whole domain *)
      destruct (in_split fj F Hj) as (F1 & F2 & EF).
      destruct (IH (f :: F1 ++ F2)) with (E := fj :: E) (g := g) (N := N) as (c1 & s1 & Cc1 & Ss1 & K1); auto.
      * cbn. rewrite EF in Lk. rewrite app_length in *. cbn in Lk. lia.
      * intros f' [<-|Hf]; [exact Lf|]. apply LF'. rewrite EF. apply in_or_app. cbn. apply in_app_or in Hf. tauto.
      * intros e [<-|He]; auto.
      * intros x A B. apply H; [intros e He; apply A; right; exact He|]. intros f' [<-|Hf]; [apply B; left; reflexivity|].
        rewrite EF in Hf. apply in_app_or in Hf. destruct Hf as [Hf|[<-|Hf]]; [apply B; right; apply in_or_app; auto|rewrite (A fj (or_introl eq_refl)); lra|apply B; right; apply in_or_app; auto].
      * destruct (span_cons fj E s1 Ss1) as (w & s0 & Ss0 & Es).
        assert (Cc1' : cone (fun f' => In f' (f :: F)) c1).
        { eapply cone_mono; [|exact Cc1]. intros f' [<-|Hf]; [left; reflexivity|]. right. rewrite EF. apply in_or_app. cbn. apply in_app_or in Hf. tauto. }
        destruct (Rle_dec 0 w) as [Hw|Hw].
        { exists (fun x => w * fj x + c1 x), s0. split; [eapply cone_s; [right; exact Hj|exact Hw|exact Cc1'|reflexivity]|]. split; [exact Ss0|]. intros x. specialize (K1 x). rewrite Es in K1. lra. }
        { (* w fj = (- w / a) (f + c' + s) *)
          set (t := - w / a). assert (Ht : 0 <= t) by (unfold t; apply Rle_mult_inv_pos; lra).
          exists (fun x => t * f x + (t * c' x + c1 x)), (fun x => t * s x + s0 x). split; [|split].
          - eapply (cone_s _ f t (fun x => t * c' x + c1 x)); [left; reflexivity|exact Ht| |reflexivity]. apply (cone_add _ (fun x => t * c' x)); [|exact Cc1'].
            apply cone_scal; [exact Ht|]. eapply cone_mono; [|exact Cc']. intros; right; assumption.
          - apply (span_add _ (fun x => t * s x)); [apply span_scal; exact Ss|exact Ss0].
          - intros x. specialize (K1 x). rewrite Es in K1. specialize (Id x). rewrite Ec in Id.
            replace (w * fj x) with (t * (- a * fj x)) in K1 by (unfold t; field; lra). replace (- a * fj x) with (f x + c' x + s x) in K1 by lra. lra. }
Qed.

(* the form used below: inequalities only *)
Lemma multipliers F g N : (forall f, In f F -> linear f) -> linear g -> sublinear N -> (forall x, (forall f, In f F -> f x <= 0) -> g x <= N x) ->
  exists c, cone (fun f => In f F) c /\ forall x, g x <= N x + c x.
Proof.
  intros LF Lg LN H. destruct (multipliers_eq (length F) F (le_n _) LF []) with (g := g) (N := N) as (c & s & Cc & Ss & K); auto; [contradiction|].
  exists c. split; [exact Cc|]. intros x. specialize (K x). rewrite (span_zero (fun e => In e []) s x) in K; [lra|contradiction|exact Ss].
Qed.

(* explicit coefficients, one for each index *)
Lemma cone_coefficients {I : Type} (F : I -> V -> R) (l : list I) c : cone (fun f => In f (map F l)) c ->
  exists ys, length ys = length l /\ Forall (fun y => 0 <= y) ys /\ forall x, c x = fold_right (fun iy acc => snd iy * F (fst iy) x + acc) 0 (combine l ys).
Proof.
  induction 1 as [p K|f y p q Pf Hy C (ys & L & Fy & E0) E].
  - exists (repeat 0 (length l)). split; [apply repeat_length|]. split; [apply Forall_forall; intros a Ha; apply repeat_spec in Ha; lra|].
    intros x. rewrite K. clear. induction l as [|i l IH]; cbn; [reflexivity|]. rewrite <- IH. ring.
  - apply in_map_iff in Pf. destruct Pf as (i & <- & Hi). clear C.
    assert (G : exists ys', length ys' = length l /\ Forall (fun y => 0 <= y) ys' /\ forall x, fold_right (fun iy acc => snd iy * F (fst iy) x + acc) 0 (combine l ys') =
              y * F i x + fold_right (fun iy acc => snd iy * F (fst iy) x + acc) 0 (combine l ys)).
    { clear E E0 p q. revert ys L Fy. induction l as [|j l IH]; intros [|b ys] L Fy; cbn in *; try discriminate; [contradiction|]. inversion Fy; subst.
      destruct Hi as [->|Hi].
      - exists ((y + b) :: ys). split; [exact L|]. split; [constructor; [lra|assumption]|]. intros x. cbn. ring.
      - destruct (IH Hi ys ltac:(congruence) H2) as (ys' & L' & F' & E'). exists (b :: ys'). split; [cbn; congruence|]. split; [constructor; assumption|].
        intros x. cbn. rewrite E'. ring. }
    destruct G as (ys' & L' & F' & E'). exists ys'. split; [exact L'|]. split; [exact F'|]. intros x. rewrite E', E, E0. reflexivity.
Qed.
End Space.
