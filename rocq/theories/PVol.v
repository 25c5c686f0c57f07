(** Property C96: volatilities over periods (dcf/curves/volatilitycurve.py:59-69, 97-126).
    Whoever prices an option over a period made of two parts expects variances to add up. *)
From Coq Require Import Reals Lra Lia List Bool.
From Verif Require Import Num Py Spec SInterpolation SCurve SDates SRateCurve LBase LSort MInterpolation
  LInterpolation LCompounding MDates MCurve MRateCurve LDates LCurve LCurve2 LDateCurve LDateCurve2 LRateCurve
  LRateCurve2 LRateCurve3 PRateCurve PRateCurve2 PCredit LCredit LRateCurve4 LCivil.
Import ListNotations.
Open Scope R_scope.

Section Vol.
  Context {D P : Type} (DS : DateSys R D P) (tm : D -> R) (DC : DayCounts R D) (L : DateLaws DS tm).

  (** the sum over the days from ds 0 on, the last one ending at stop *)
  Definition daily_sum (tau : D -> D -> R) (ds : nat -> D) (n : nat) (stop : D) (v : D -> R) : R :=
    sum_n (fun i => v (ds i) * tau (ds i) (ds (S i))) n + v (ds n) * tau (ds n) stop.
  (** the days of a period: n whole days before the last one *)
  Definition days (ds : nat -> D) (n : nat) (start stop : D) : Prop :=
    ds 0%nat = start /\ schedule (p_str Tday) ds (S n) /\ tm (ds n) < tm stop <= tm (ds (S n)).

  Lemma inst_period c tau (v : D -> R) ds n start stop : additive (rc_yf c) tau -> rc_cls c = CInstVol ->
    (forall d, has_value c d (v d)) -> days ds n start stop ->
    forall fuel flr, (n < fuel)%nat -> terminal_vol (S fuel) flr c start (Some stop) = Ok (daily_sum tau ds n stop v / tau start stop).
  Proof.
    intros A K V (<- & Sc & En) fuel flr LF.
    assert (LT : tm (ds 0%nat) < tm stop).
    { destruct n; [lra|]. pose proof (schedule_tm (L:=L) _ _ _ Sc 0 (S n) ltac:(lia)). lra. }
    cbn [terminal_vol]. rewrite K, eqb_f, ltb_f by lra. unfold integrate.
    rewrite (integrate_loop_ok (L:=L) (rc_yf c) tau (p_str Tday) v (rc_call c) A n); auto.
    2:{ intros i _. apply V. }
    cbn [bind]. rewrite (add_val _ _ A). cbn [bind]. rn. rewrite Rdivp_ok.
    - f_equal. unfold daily_sum. f_equal. lra.
    - intro Z. apply (add_zero _ _ A) in Z. apply law_eqb in Z. lra.
  Qed.

  (** * A curve of instantaneous volatilities *)
  (** ... gives the average of the volatilities of the days *)
  Theorem C96_average : forall c tau (v : D -> R) start stop, additive (rc_yf c) tau -> rc_cls c = CInstVol ->
    (forall d, has_value c d (v d)) -> steps (p_str Tday) -> unbounded (p_str Tday) -> d_ltb start stop = true ->
    exists n ds, days ds n start stop /\
      (forall fuel flr, (n < fuel)%nat -> terminal_vol (S fuel) flr c start (Some stop) = Ok (daily_sum tau ds n stop v / tau start stop)) /\
      (rc_origin c = Some start -> forall fuel flr, (n < fuel)%nat ->
       terminal_vol (S (S fuel)) flr c stop None = Ok (daily_sum tau ds n stop v / tau start stop)).
  Proof.
    intros c tau v start stop A K V St U LT.
    destruct (reach_any (L:=L) (p_str Tday) start stop St U LT) as [n [ds [D0 [Sc En]]]].
    assert (DD : days ds n start stop) by (split; auto). exists n, ds. split; auto.
    pose proof (inst_period c tau v ds n start stop A K V DD) as H. split; auto.
    intros O fuel flr LF. rewrite <- (H fuel flr LF). remember (S fuel) as f. cbn [terminal_vol]. now rewrite K, O.
  Qed.

  Lemma daily_total tau yf ds n start stop : additive yf tau -> days ds n start stop ->
    daily_sum tau ds n stop (fun _ => 1) = tau start stop.
  Proof.
    intros A (<- & _ & _). unfold daily_sum. rewrite !Rmult_1_l.
    assert (X : sum_n (fun i => 1 * tau (ds i) (ds (S i))) n = tau (ds 0%nat) (ds n)).
    { induction n as [|n IH].
      - unfold sum_n. simpl. symmetry. apply (add_zero _ _ A). now apply law_eqb.
      - rewrite sum_n_last, IH, Rmult_1_l. apply (add_add _ _ A). }
    rewrite X. apply (add_add _ _ A).
  Qed.
  Lemma daily_linear tau ds n stop (f g : D -> R) a b :
    daily_sum tau ds n stop (fun d => a * f d + b * g d) = a * daily_sum tau ds n stop f + b * daily_sum tau ds n stop g.
  Proof.
    unfold daily_sum.
    assert (X : sum_n (fun i => (a * f (ds i) + b * g (ds i)) * tau (ds i) (ds (S i))) n =
      a * sum_n (fun i => f (ds i) * tau (ds i) (ds (S i))) n + b * sum_n (fun i => g (ds i) * tau (ds i) (ds (S i))) n).
    { induction n as [|n IH]; [unfold sum_n; simpl; lra|]. rewrite !sum_n_last, IH. lra. }
    rewrite X. lra.
  Qed.
  Lemma daily_ext tau ds n stop (f g : D -> R) : (forall d, f d = g d) -> daily_sum tau ds n stop f = daily_sum tau ds n stop g.
  Proof. intro E. unfold daily_sum. f_equal; [apply sum_n_ext; intros; now rewrite E|now rewrite E]. Qed.
  Lemma days_positive tau ds n start stop i : monotone tau -> days ds n start stop -> (i <= n)%nat ->
    0 < (if Nat.eqb i n then tau (ds n) stop else tau (ds i) (ds (S i))).
  Proof.
    intros M (_ & Sc & En) LE. destruct (Nat.eqb_spec i n) as [->|NE].
    - apply M, law_ltb. lra.
    - apply M. apply Sc. lia.
  Qed.
  Lemma daily_nonneg tau ds n start stop (f : D -> R) : monotone tau -> days ds n start stop ->
    (forall d, 0 <= f d) -> 0 <= daily_sum tau ds n stop f /\
    (daily_sum tau ds n stop f = 0 -> forall i, (i <= n)%nat -> f (ds i) = 0).
  Proof.
    intros M DD NN. pose proof (fun i => days_positive tau ds n start stop i M DD) as W.
    assert (X : forall m, (m <= n)%nat -> 0 <= sum_n (fun i => f (ds i) * tau (ds i) (ds (S i))) m /\
      (sum_n (fun i => f (ds i) * tau (ds i) (ds (S i))) m = 0 -> forall i, (i < m)%nat -> f (ds i) = 0)).
    { induction m as [|m IH]; intro LE; [split; [unfold sum_n; simpl; lra|intros; lia]|]. destruct (IH ltac:(lia)) as [I1 I2].
      rewrite sum_n_last. specialize (W m ltac:(lia)). destruct (Nat.eqb_spec m n); [lia|].
      pose proof (NN (ds m)). assert (0 <= f (ds m) * tau (ds m) (ds (S m))) by (apply Rmult_le_pos; lra). split; [lra|].
      intros Z i LI. destruct (Nat.eq_dec i m) as [->|NE]; [|apply I2; [lra|lia]].
      assert (Q : f (ds m) * tau (ds m) (ds (S m)) = 0) by lra. apply Rmult_integral in Q. destruct Q; lra. }
    destruct (X n (le_n _)) as [X1 X2]. specialize (W n (le_n _)). rewrite Nat.eqb_refl in W.
    pose proof (NN (ds n)). assert (0 <= f (ds n) * tau (ds n) stop) by (apply Rmult_le_pos; lra).
    unfold daily_sum. split; [lra|]. intros Z i LI. destruct (Nat.eq_dec i n) as [->|NE]; [|apply X2; [lra|lia]].
    assert (Q : f (ds n) * tau (ds n) stop = 0) by lra. apply Rmult_integral in Q. destruct Q; lra.
  Qed.

  (** ... so it never exceeds the volatility of the accumulated variance, and is below it
      unless the volatility is the same on all days *)
  Theorem C96_understates : forall c tau (v : D -> R) start stop, additive (rc_yf c) tau -> monotone tau -> rc_cls c = CInstVol ->
    (forall d, has_value c d (v d)) -> steps (p_str Tday) -> unbounded (p_str Tday) -> d_ltb start stop = true ->
    exists n ds x, days ds n start stop /\
      (forall fuel flr, (n < fuel)%nat -> terminal_vol (S fuel) flr c start (Some stop) = Ok x) /\
      x * x * tau start stop <= daily_sum tau ds n stop (fun d => v d * v d) /\
      (x * x * tau start stop = daily_sum tau ds n stop (fun d => v d * v d) <-> forall i, (i <= n)%nat -> v (ds i) = x).
  Proof.
    intros c tau v start stop A M K V St U LT.
    destruct (C96_average c tau v start stop A K V St U LT) as (n & ds & DD & H & _).
    exists n, ds, (daily_sum tau ds n stop v / tau start stop). split; auto. split; auto.
    set (S1 := daily_sum tau ds n stop v). set (x := S1 / tau start stop).
    assert (TP : 0 < tau start stop) by now apply M. assert (SX : S1 = x * tau start stop) by (unfold x; field; lra).
    assert (Q : daily_sum tau ds n stop (fun d => (v d - x) * (v d - x)) =
      daily_sum tau ds n stop (fun d => v d * v d) - x * x * tau start stop).
    { rewrite (daily_ext _ _ _ _ _ (fun d => 1 * (v d * v d) + 1 * (- (2 * x) * v d + x * x * 1))) by (intro; ring).
      rewrite (daily_linear _ _ _ _ (fun d => v d * v d) (fun d => - (2 * x) * v d + x * x * 1)), (daily_linear _ _ _ _ v (fun _ => 1)).
      rewrite (daily_total tau _ ds n start stop A DD). fold S1. rewrite SX. ring. }
    destruct (daily_nonneg tau ds n start stop (fun d => (v d - x) * (v d - x)) M DD) as [N1 N2].
    { intro d. apply Rle_0_sqr. }
    split; [lra|]. split.
    - intros E i LI. specialize (N2 ltac:(lra) i LI). cbv beta in N2. apply Rmult_integral in N2. destruct N2; lra.
    - intro E. assert (Z : daily_sum tau ds n stop (fun d => (v d - x) * (v d - x)) = 0); [|lra].
      unfold daily_sum. rewrite (sum_n_ext _ (fun _ => 0)).
      + rewrite E by lia. replace (sum_n (fun _ => 0) n) with 0; [ring|]. clear. induction n as [|n IH]; [reflexivity|].
        rewrite sum_n_last. lra.
      + intros i LI. rewrite E by lia. ring.
  Qed.

  (** ... and it is the volatilities, not the variances, which add up over periods which meet
      at one of the days *)
  Theorem C96_volatilities_add : forall c tau (v : D -> R) ds n s u k, additive (rc_yf c) tau -> rc_cls c = CInstVol ->
    (forall d, has_value c d (v d)) -> days ds n s u -> (0 < k <= n)%nat ->
    exists x y z, (forall fuel flr, (n < fuel)%nat ->
        terminal_vol (S fuel) flr c s (Some (ds k)) = Ok x /\ terminal_vol (S fuel) flr c (ds k) (Some u) = Ok y /\
        terminal_vol (S fuel) flr c s (Some u) = Ok z) /\
      z * tau s u = x * tau s (ds k) + y * tau (ds k) u.
  Proof.
    intros c tau v ds n s u k A K V DD LK. pose proof DD as (D0 & Sc & En).
    assert (D1 : days ds (k - 1) s (ds k)).
    { split; auto. split; [intros i Hi; apply Sc; lia|]. destruct k as [|k]; [lia|]. replace (S k - 1)%nat with k by lia.
      split; [|lra]. apply law_ltb. apply Sc. lia. }
    assert (D2 : days (fun i => ds (k + i)%nat) (n - k) (ds k) u).
    { split; [now rewrite Nat.add_0_r|]. split.
      - intros i Hi. replace (k + S i)%nat with (S (k + i)) by lia. apply Sc. lia.
      - replace (k + (n - k))%nat with n by lia. replace (k + S (n - k))%nat with (S n) by lia. exact En. }
    assert (NZ : forall ds n a b, days ds n a b -> tau a b <> 0).
    { intros ds' n' a b (<- & Sc' & En') Z. apply (add_zero _ _ A) in Z. apply law_eqb in Z.
      destruct n' as [|n']; [lra|]. pose proof (schedule_tm (L:=L) _ _ _ Sc' 0 (S n') ltac:(lia)). lra. }
    do 3 eexists. split.
    - intros fuel flr LF. split; [|split]; apply (inst_period _ tau v); eauto; lia.
    - assert (E : daily_sum tau ds n u v = daily_sum tau ds (k - 1) (ds k) v + daily_sum tau (fun i => ds (k + i)%nat) (n - k) u v).
      { unfold daily_sum. replace (k + (n - k))%nat with n by lia.
        replace n with (k + (n - k))%nat at 1 by lia. rewrite sum_n_add.
        replace (sum_n (fun i => v (ds i) * tau (ds i) (ds (S i))) k) with
          (sum_n (fun i => v (ds i) * tau (ds i) (ds (S i))) (k - 1) + v (ds (k - 1)%nat) * tau (ds (k - 1)%nat) (ds k)).
        2:{ destruct k as [|k]; [lia|]. replace (S k - 1)%nat with k by lia. now rewrite sum_n_last. }
        rewrite (sum_n_ext (fun i => v (ds (k + i)%nat) * tau (ds (k + i)%nat) (ds (S (k + i))))
          (fun i => v (ds (k + i)%nat) * tau (ds (k + i)%nat) (ds (k + S i)%nat))); [lra|].
        intros i _. now replace (k + S i)%nat with (S (k + i)) by lia. }
      pose proof (NZ _ _ _ _ DD). pose proof (NZ _ _ _ _ D1). pose proof (NZ _ _ _ _ D2).
      rewrite E. field. auto.
  Qed.

  (** a flat curve gives its level over every period *)
  Theorem C96_flat : forall c tau x start stop, additive (rc_yf c) tau -> rc_cls c = CInstVol ->
    (forall d, has_value c d x) -> steps (p_str Tday) -> unbounded (p_str Tday) -> d_ltb start stop = true ->
    exists n, forall fuel flr, (n < fuel)%nat -> terminal_vol (S fuel) flr c start (Some stop) = Ok x.
  Proof.
    intros c tau x start stop A K V St U LT.
    destruct (C96_average c tau (fun _ => x) start stop A K V St U LT) as (n & ds & DD & H & _).
    exists n. intros fuel flr LF. rewrite (H fuel flr LF). f_equal.
    rewrite (daily_ext _ _ _ _ _ (fun d => x * 1 + 0 * 1)) by (intro; ring).
    rewrite (daily_linear _ _ _ _ (fun _ => 1) (fun _ => 1)), (daily_total tau _ ds n start stop A DD). field.
    intro Z. apply (add_zero _ _ A) in Z. apply law_eqb in Z. apply law_ltb in LT. lra.
  Qed.

  (** * A curve of terminal volatilities: variances add up *)
  Theorem C96_variances_add : forall c o tau, additive (rc_yf c) tau -> monotone tau -> rc_cls c = CTermVol -> rc_origin c = Some o ->
    forall s t u vs vt vu fuel, has_value c s vs -> has_value c t vt -> has_value c u vu ->
    d_ltb o s = true -> d_ltb s t = true -> d_ltb t u = true ->
    tau o s * (vs * vs) <= tau o t * (vt * vt) -> tau o t * (vt * vt) <= tau o u * (vu * vu) ->
    exists x y z, terminal_vol (S fuel) None c s (Some t) = Ok x /\ terminal_vol (S fuel) None c t (Some u) = Ok y /\
      terminal_vol (S fuel) None c s (Some u) = Ok z /\
      z * z * tau s u = x * x * tau s t + y * y * tau t u.
  Proof.
    intros c o tau A M K O s t u vs vt vu fuel Hs Ht Hu L1 L2 L3 W1 W2.
    assert (L4 : d_ltb o t = true) by (apply law_ltb; apply law_ltb in L1; apply law_ltb in L2; lra).
    assert (L5 : d_ltb s u = true) by (apply law_ltb; apply law_ltb in L3; apply law_ltb in L2; lra).
    destruct (C33_terminal_vol DS tm DC L c o tau A M K O s t vs vt fuel Hs Ht L1 L2) as (_ & Q1 & _).
    destruct (C33_terminal_vol DS tm DC L c o tau A M K O t u vt vu fuel Ht Hu L4 L3) as (_ & Q2 & _).
    destruct (C33_terminal_vol DS tm DC L c o tau A M K O s u vs vu fuel Hs Hu L1 L5) as (_ & Q3 & _).
    destruct (Q1 ltac:(lra)) as (x & E1 & _ & F1 & _). destruct (Q2 ltac:(lra)) as (y & E2 & _ & F2 & _).
    destruct (Q3 ltac:(lra)) as (z & E3 & _ & F3 & _). exists x, y, z. repeat split; auto. lra.
  Qed.
End Vol.
Print Assumptions C96_average.
Print Assumptions C96_understates.
Print Assumptions C96_volatilities_add.
Print Assumptions C96_flat.
Print Assumptions C96_variances_add.

(** * Refuted: variances do not add up for instantaneous volatilities *)
#[local] Instance no_registry6 {D} : DayCounts R D := [].
(** 20% on the first day, 40% from the second: 30% over both, but 0.3^2 + 0.3^2 < 0.2^2 + 0.4^2 *)
Theorem C96_variance_refuted : exists c : rcurve R bdate bperiod,
  rc_new (DS:=DayDates) CInstVol [BD 0 0; BD 1 0] [1 / 5; 2 / 5] None None DcDefault None = Ok c /\
  forall fuel, (2 < fuel)%nat ->
    terminal_vol (DS:=DayDates) fuel None c (BD 0 0) (Some (BD 1 0)) = Ok (1 / 5) /\
    terminal_vol (DS:=DayDates) fuel None c (BD 1 0) (Some (BD 2 0)) = Ok (2 / 5) /\
    terminal_vol (DS:=DayDates) fuel None c (BD 0 0) (Some (BD 2 0)) = Ok (3 / 10) /\
    (3 / 10) * (3 / 10) * 2 < (1 / 5) * (1 / 5) * 1 + (2 / 5) * (2 / 5) * 1.
Proof.
  set (t := fun d => IZR (bd_day d) / (1461 / 4)).
  pose proof (default_additive (L:=day_laws) (DC:=no_registry6)) as A.
  destruct (rc_new_linear (L:=day_laws) DcDefault _ A CInstVol [BD 0 0; BD 1 0] [1 / 5; 2 / 5] None (BD 0 0) None) as [c [E [B [_ V]]]]; auto.
  { reflexivity. } { simpl. repeat constructor; simpl; intuition lra. } { discriminate. }
  exists c. split; auto. destruct B as [B1 [_ [B3 [_ [_ [_ [_ [_ [_ B10]]]]]]]]].
  assert (F : exists v, forall d, has_value (DS:=DayDates) c d (v d)).
  { exists (fun d => match rc_call (DS:=DayDates) c d with Ok x => x | Err _ => 0 end). intro d.
    destruct (V d) as [y [Q _]]. unfold has_value. now rewrite Q. }
  destruct F as [v HV].
  assert (DI : distinct (combine (map t [BD 0 0; BD 1 0]) [1 / 5; 2 / 5])).
  { apply distinct_combine; auto. unfold t. simpl. repeat constructor; simpl; intuition lra. }
  assert (PT : forall d y, In (t d, y) (combine (map t [BD 0 0; BD 1 0]) [1 / 5; 2 / 5]) -> v d = y).
  { intros d y I. specialize (HV d). unfold has_value in HV. destruct (V d) as [w [Q H]]. rewrite HV in Q. injection Q as ->.
    specialize (H t ltac:(intros; unfold t; reflexivity)). exact (pl_node _ _ _ _ DI I H). }
  assert (V0 : v (BD 0 0) = 1 / 5) by (apply PT; simpl; auto).
  assert (V1 : v (BD 1 0) = 2 / 5) by (apply PT; simpl; auto).
  assert (DY : forall a n, days DayDates t (fun i => BD (a + Z.of_nat i) 0) n (BD a 0) (BD (a + Z.of_nat n + 1) 0)).
  { intros a n. split; [f_equal; lia|]. split.
    - intros i _. split; [|cbn -[Z.of_nat]; apply Z.ltb_lt; lia]. cbn -[Z.of_nat bd_plus]. unfold bd_plus. cbn -[Z.of_nat]. do 2 f_equal. lia.
    - unfold t. cbn [bd_day]. split; [|right; f_equal; f_equal; lia].
      apply Rmult_lt_compat_r; [lra|]. apply IZR_lt. lia. }
  intros fuel LF. destruct fuel as [|fuel]; [lia|].
  rewrite (inst_period DayDates t no_registry6 day_laws c _ v _ 0 _ _ B10 B1 HV (DY 0%Z 0%nat)) by lia.
  rewrite (inst_period DayDates t no_registry6 day_laws c _ v _ 0 _ _ B10 B1 HV (DY 1%Z 0%nat)) by lia.
  rewrite (inst_period DayDates t no_registry6 day_laws c _ v _ 1 _ _ B10 B1 HV (DY 0%Z 1%nat)) by lia.
  unfold daily_sum, sum_n, t. cbn [seq map Rsum Z.of_nat Z.add Pos.of_succ_nat Pos.succ Pos.add bd_day].
  rewrite V0, V1. split; [|split; [|split]]; [f_equal; field|f_equal; field|f_equal; field|lra].
Qed.
Print Assumptions C96_variance_refuted.

(** * Instances *)
(** ... the same curve meets the hypotheses of the theorems on instantaneous volatilities *)
Example C96_instance : steps (DS:=DayDates (T:=R)) (p_str Tday) /\ unbounded (DS:=DayDates (T:=R)) (p_str Tday) /\
  exists (c : rcurve R bdate bperiod) v x, rc_new (DS:=DayDates) CInstVol [BD 0 0; BD 1 0] [1 / 5; 2 / 5] None None DcDefault None = Ok c /\
    (forall d, has_value (DS:=DayDates) c d (v d)) /\
    exists n, forall fuel flr, (n < fuel)%nat -> terminal_vol (DS:=DayDates) (S fuel) flr c (BD 0 0) (Some (BD 100 0)) = Ok x.
Proof.
  split; [exact day_steps|]. split; [exact day_unbounded|].
  pose proof (default_additive (L:=day_laws) (DC:=no_registry6)) as A.
  destruct (rc_new_linear (L:=day_laws) DcDefault _ A CInstVol [BD 0 0; BD 1 0] [1 / 5; 2 / 5] None (BD 0 0) None) as [c [E [B [_ V]]]]; auto.
  { reflexivity. } { simpl. repeat constructor; simpl; intuition lra. } { discriminate. }
  destruct B as [B1 [_ [B3 [_ [_ [_ [_ [_ [_ B10]]]]]]]]].
  set (v := fun d => match rc_call (DS:=DayDates) c d with Ok x => x | Err _ => 0 end).
  assert (HV : forall d, has_value (DS:=DayDates) c d (v d)).
  { intro d. unfold v, has_value. destruct (V d) as [y [Q _]]. now rewrite Q. }
  destruct (C96_understates DayDates _ no_registry6 day_laws c _ v (BD 0 0) (BD 100 0) B10) as (n & ds & x & _ & H & _); auto.
  - intros a b. rewrite (law_ltb (DateLaws:=day_laws)). lra.
  - exact day_steps.
  - exact day_unbounded.
  - exists c, v, x. split; auto. split; auto. exists n. exact H.
Qed.
