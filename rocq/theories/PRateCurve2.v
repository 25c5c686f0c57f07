(** Properties C23 - C26 and C29: short rates, cash rates, swap annuity, spreads
    (dcf/curves/curve.py:651-785, dcf/curves/interestratecurve.py). *)
From Coq Require Import Reals Lra Lia List Bool ZArith.
From Verif Require Import Num Py Spec SInterpolation SCurve SDates SRateCurve LBase LCompounding MCompounding MInterpolation MDates
  MCurve MRateCurve LDates LFuel LCurve LCurve2 LDateCurve LRateCurve LRateCurve2 LRateCurve3 LRateCurve4.
Import ListNotations.
Open Scope R_scope.

#[local] Instance no_registry {D} : DayCounts R D := [].

(** * C23 *)
(** between two days of a daily schedule: the sum of the daily rates, for both classes;
    the product rule follows for any three days in order *)
Theorem C23_short_rate_curve : forall {D P} (DS : DateSys R D P) (tm : D -> R) (DC : DayCounts R D),
  DateLaws DS tm -> forall (c : rcurve R D P) tau, additive (rc_yf c) tau -> rc_cls c = CShortRate ->
  forall (ds : nat -> D) n v, schedule (p_str Tday) ds n ->
  (forall i, (i < n)%nat -> has_value c (ds i) (v i)) ->
  forall i j k fuel, (i <= j)%nat -> (j <= k)%nat -> (k <= n)%nat -> (n + 3 <= fuel)%nat ->
  exists x y,
    get_discount_factor fuel c (ds i) (ds j) = Ok x /\
    get_discount_factor fuel c (ds j) (ds k) = Ok y /\
    get_discount_factor fuel c (ds i) (ds k) = Ok (x * y) /\
    x = exp (- sum_n (fun m => v (i + m)%nat * tau (ds (i + m)%nat) (ds (S (i + m)))) (j - i)).
Proof.
  intros D P DS tm DC L c tau A K ds n v Sc V i j k fuel Hi Hj Hk F.
  unfold get_discount_factor, interest_only. rewrite K. cbn [is_interest].
  assert (G : forall a b, (a <= b)%nat -> (b <= n)%nat -> factor fuel c (ds a) (ds b) =
    Ok (exp (- sum_n (fun m => v (a + m)%nat * tau (ds (a + m)%nat) (ds (S (a + m)))) (b - a)))).
  { intros a b Ha Hb. pose proof (daily_factor (L:=L) c tau A fuel n ds v a (b - a)) as H.
    replace (a + (b - a))%nat with b in H by lia. apply H; auto. }
  rewrite !G by lia. eexists _, _. split; [reflexivity|]. split; [reflexivity|]. split; [|reflexivity].
  f_equal. rewrite <- exp_plus. f_equal. replace (k - i)%nat with ((j - i) + (k - j))%nat by lia. rewrite sum_n_add.
  rewrite (sum_n_ext (fun m => v (i + (j - i + m))%nat * tau (ds (i + (j - i + m))%nat) (ds (S (i + (j - i + m)))))
                     (fun m => v (j + m)%nat * tau (ds (j + m)%nat) (ds (S (j + m))))); [ring|].
  intros m _. now replace (i + (j - i + m))%nat with (j + m)%nat by lia.
Qed.
Print Assumptions C23_short_rate_curve.

Theorem C23_hazard_rate_curve : forall {D P} (DS : DateSys R D P) (tm : D -> R) (DC : DayCounts R D),
  DateLaws DS tm -> forall (c : rcurve R D P) tau, additive (rc_yf c) tau -> rc_cls c = CHazard ->
  forall (ds : nat -> D) n v, schedule (p_str Tday) ds n ->
  (forall i, (i < n)%nat -> has_value c (ds i) (v i)) ->
  forall i j k fuel, (i <= j)%nat -> (j <= k)%nat -> (k <= n)%nat -> (n + 3 <= fuel)%nat ->
  exists x y,
    get_survival_prob fuel c (ds i) (ds j) = Ok x /\
    get_survival_prob fuel c (ds j) (ds k) = Ok y /\
    get_survival_prob fuel c (ds i) (ds k) = Ok (x * y) /\
    x = exp (- sum_n (fun m => v (i + m)%nat * tau (ds (i + m)%nat) (ds (S (i + m)))) (j - i)).
Proof.
  intros D P DS tm DC L c tau A K ds n v Sc V i j k fuel Hi Hj Hk F.
  unfold get_survival_prob, credit_only. rewrite K. cbn [is_credit is_interest is_vol negb andb].
  assert (G : forall a b, (a <= b)%nat -> (b <= n)%nat -> factor fuel c (ds a) (ds b) =
    Ok (exp (- sum_n (fun m => v (a + m)%nat * tau (ds (a + m)%nat) (ds (S (a + m)))) (b - a)))).
  { intros a b Ha Hb. pose proof (daily_factor (L:=L) c tau A fuel n ds v a (b - a)) as H.
    replace (a + (b - a))%nat with b in H by lia. apply H; auto. }
  rewrite !G by lia. eexists _, _. split; [reflexivity|]. split; [reflexivity|]. split; [|reflexivity].
  f_equal. rewrite <- exp_plus. f_equal. replace (k - i)%nat with ((j - i) + (k - j))%nat by lia. rewrite sum_n_add.
  rewrite (sum_n_ext (fun m => v (i + (j - i + m))%nat * tau (ds (i + (j - i + m))%nat) (ds (S (i + (j - i + m)))))
                     (fun m => v (j + m)%nat * tau (ds (j + m)%nat) (ds (S (j + m))))); [ring|].
  intros m _. now replace (i + (j - i + m))%nat with (j + m)%nat by lia.
Qed.
Print Assumptions C23_hazard_rate_curve.

(** any two dates: the evaluation ends if daily steps move on and reach any date; the
    last step may be shorter than a day *)
Theorem C23_terminates : forall {D P} (DS : DateSys R D P) (tm : D -> R) (DC : DayCounts R D),
  DateLaws DS tm -> forall (c : rcurve R D P) tau, additive (rc_yf c) tau ->
  rc_cls c = CShortRate \/ rc_cls c = CHazard ->
  steps (p_str Tday) -> unbounded (p_str Tday) -> forall v, (forall d, has_value c d (v d)) ->
  forall s t, d_ltb s t = true ->
  exists ds n, ds 0%nat = s /\ schedule (p_str Tday) ds (S n) /\
    d_ltb (ds n) t = true /\ d_leb t (ds (S n)) = true /\
    let x := exp (- (sum_n (fun i => v (ds i) * tau (ds i) (ds (S i))) n + v (ds n) * tau (ds n) t)) in
    forall fuel, (n + 3 <= fuel)%nat ->
    (rc_cls c = CShortRate -> get_discount_factor fuel c s t = Ok x) /\
    (rc_cls c = CHazard -> get_survival_prob fuel c s t = Ok x).
Proof.
  intros D P DS tm DC L c tau A K St U v V s t H.
  destruct (reach_any (L:=L) (p_str Tday) s t St U H) as [n [ds [D0 [Sc [E1 E2]]]]].
  exists ds, n. split; auto. split; auto. split; [now apply ltb_t|]. split; [now apply leb_t|]. cbv zeta.
  intros fuel F. destruct (short_factor (L:=L) c tau A fuel n ds t v) as [_ Q]; auto; [split; auto|lia|].
  rewrite D0 in Q. unfold rate_sum in Q. unfold get_discount_factor, interest_only, get_survival_prob, credit_only.
  split; intro K'; rewrite K'; exact Q.
Qed.
Print Assumptions C23_terminates.

(** business dates and the default day count: the sum of the daily values over 365.25 *)
Theorem C23_business_dates : forall (c : rcurve R bdate bperiod) v,
  (forall a b, rc_yf (DS:=DayDates) c a b = d_yf (DateSys:=DayDates) a b) ->
  rc_cls c = CShortRate -> (forall d, has_value (DS:=DayDates) c d (v (bd_day d))) ->
  forall a i j n fuel, (n + 3 <= fuel)%nat ->
  get_discount_factor (DS:=DayDates) fuel c (BD a i) (BD (a + Z.of_nat n) j) =
    Ok (exp (- (sum_n (fun k => v (a + Z.of_nat k)%Z) n / (1461 / 4)))).
Proof.
  intros c v Y K V a i j n fuel F.
  set (tm := fun d => IZR (bd_day d) / (1461 / 4)).
  assert (A : additive (DS:=DayDates) (rc_yf (DS:=DayDates) c) (fun a b => tm b - tm a)).
  { pose proof (yf_additive (L:=day_laws)) as [A1 A2 A3]. constructor; auto. intros. rewrite Y. apply A1. }
  set (ds := fun k => match k with O => BD a i | S _ => BD (a + Z.of_nat k) 0 end).
  assert (DD : forall k, bd_day (ds k) = (a + Z.of_nat k)%Z) by (intros [|k]; simpl; lia).
  assert (Sc : forall m, schedule (DS:=DayDates (T:=R)) (p_str Tday) ds m).
  { intros m k _. split.
    - rewrite day_plus, DD. unfold ds. do 2 f_equal. lia.
    - cbn. apply Z.ltb_lt. rewrite !DD. lia. }
  assert (FE : factor (DS:=DayDates) fuel c (BD a i) (BD (a + Z.of_nat n) j) =
               Ok (exp (- sum_n (fun m => v (a + Z.of_nat m)%Z * (tm (ds (S m)) - tm (ds m))) n))).
  { destruct n.
    - destruct fuel; [lia|]. rewrite base_factor_refl; try (unfold prob_cls; rewrite K; intuition discriminate).
      + unfold sum_n. simpl. now rewrite Ropp_0, exp_0.
      + cbn. apply Z.eqb_eq. lia.
    - destruct (short_factor (L:=day_laws) c _ A fuel n ds (BD (a + Z.of_nat (S n)) j) (fun d => v (bd_day d))) as [_ H]; auto.
      + eapply (aligned_ends (L:=day_laws)); [apply Sc|]. cbn [bd_day]. now rewrite DD.
      + lia.
      + change (ds 0%nat) with (BD a i) in H. rewrite H. rewrite (rate_sum_aligned (L:=day_laws) c _ A).
        * do 3 f_equal. apply sum_n_ext. intros m Hm. now rewrite DD.
        * cbn [bd_day]. now rewrite DD. }
  unfold get_discount_factor, interest_only. rewrite K. cbn [is_interest]. rewrite FE. do 3 f_equal.
  clear FE F. induction n; [unfold sum_n; simpl; lra|]. rewrite !sum_n_last, IHn. unfold tm. rewrite !DD, !plus_IZR.
  rewrite <- !INR_IZR_INZ, S_INR. field.
Qed.
Print Assumptions C23_business_dates.

(** float dates cannot be stepped by '1D' *)
Theorem C23_float_dates : forall (c : rcurve R R (fperiod R)) s t fuel,
  rc_cls c = CShortRate -> s <> t ->
  get_discount_factor (DS:=FloatDates) (3 + fuel) c s t = Err TypeError.
Proof.
  intros c s t fuel K N. unfold get_discount_factor, interest_only. rewrite K. cbn [is_interest].
  assert (E : d_eqb (DateSys:=FloatDates) s t = false) by (cbn; now apply Reqb_false).
  cbn [Nat.add]. rewrite base_factor_eq; auto; try (unfold prob_cls; rewrite K; intuition discriminate).
  assert (rate (DS:=FloatDates) (S (S fuel)) c s t = Err TypeError) as ->; [|reflexivity].
  cbn [rate]. cbv zeta. rewrite K, E. reflexivity.
Qed.
Print Assumptions C23_float_dates.

Example C23_example : exists c : rcurve R bdate bperiod,
  rc_new (DS:=DayDates) CShortRate [BD 0 1; BD 10 2] [1 / 100; 2 / 100] None None DcDefault None = Ok c /\
  (forall a b, rc_yf (DS:=DayDates) c a b = d_yf (DateSys:=DayDates) a b) /\
  (exists v, (forall d, has_value (DS:=DayDates) c d (v (bd_day d))) /\ v 0%Z = 1 / 100 /\ v 5%Z = 1 / 100 /\ v 10%Z = 2 / 100) /\
  steps (DS:=DayDates (T:=R)) (p_str Tday) /\ unbounded (DS:=DayDates (T:=R)) (p_str Tday).
Proof.
  assert (A : additive (DS:=DayDates) (dc_apply DcDefault) _) by exact (default_additive (L:=day_laws)).
  destruct (rc_new_const (L:=day_laws) DcDefault _ A CShortRate [BD 0 1; BD 10 2] [1 / 100; 2 / 100] None (BD 0 1) None)
    as [c [E [B [V V']]]]; auto.
  { simpl. repeat constructor; simpl; intuition lra. } { discriminate. }
  exists c. split; auto. destruct B as [B1 [_ [B3 [B4 [_ [_ [_ [_ [B9 _]]]]]]]]]. split; [exact B4|].
  split; [|split; [apply day_steps|apply day_unbounded]].
  exists (fun z => match rc_call (DS:=DayDates) c (BD z 0) with Ok y => y | Err _ => 0 end).
  assert (E0 : forall d, rc_call (DS:=DayDates) c (BD (bd_day d) 0) = rc_call (DS:=DayDates) c d).
  { intro d. apply B9. cbn. apply Z.eqb_eq. reflexivity. }
  split; [|split; [|split]].
  - intro d. unfold has_value. rewrite E0. destruct (V' d) as [y [-> _]]. reflexivity.
  - pose proof (E0 (BD 0 1)) as H. cbn [bd_day] in H. rewrite H, (V (BD 0 1) (1 / 100)); simpl; auto.
  - destruct (V' (BD 5 0)) as [y [-> H]]. destruct H as [[a [I [Ha _]]]|[Ha [a [I _]]]]; simpl in *.
    + destruct I as [I|[I|[]]]; inversion I; subst; auto. lra.
    + pose proof (Ha _ _ (or_introl eq_refl)). lra.
  - pose proof (E0 (BD 10 2)) as H. cbn [bd_day] in H. rewrite H, (V (BD 10 2) (2 / 100)); simpl; auto.
Qed.

(** * C24 *)
(** all classes but CashRateCurve, given by stop date, by step, or by the forward tenor *)
Theorem C24_cash_rate : forall {D P} (DS : DateSys R D P) (tm : D -> R) (DC : DayCounts R D),
  DateLaws DS tm -> forall (c : rcurve R D P) tau, additive (rc_yf c) tau -> rc_cls c <> CCashRate ->
  forall fuel s t df, d_eqb s t = false -> get_discount_factor fuel c s t = Ok df -> df <> 0 ->
  get_cash_rate (S fuel) c s (Some t) None = Ok ((1 / df - 1) / tau s t) /\
  (forall p, d_add s p = Ok t -> get_cash_rate (S fuel) c s None (Some p) = Ok ((1 / df - 1) / tau s t)) /\
  (d_add s (rc_tenor c) = Ok t -> get_cash_rate (S fuel) c s None None = Ok ((1 / df - 1) / tau s t)).
Proof.
  intros D P DS tm DC L c tau A K fuel s t df NE H Hz. unfold get_cash_rate, get_discount_factor, interest_only in *.
  destruct (is_interest (rc_cls c)) eqn:KI; [|discriminate].
  pose proof (tau_ne c tau A s t NE) as Nz.
  assert (G : match rc_cls c with
              | CCashRate => Err TypeError
              | _ => df <- factor fuel c s t ;; t <- rc_yf c s t ;; simple_rate df t
              end = Ok ((1 / df - 1) / tau s t)).
  { rewrite H. cbn [bind]. rewrite (add_val _ _ A). cbn [bind]. rewrite simple_rate_ok by auto.
    destruct (rc_cls c); congruence. }
  split; [|split].
  - cbn [cash_rate bind]. destruct (rc_cls c); congruence.
  - intros p Hp. cbn [cash_rate bind]. rewrite Hp. cbn [bind]. destruct (rc_cls c); congruence.
  - intros Hp. cbn [cash_rate bind]. rewrite Hp. cbn [bind]. destruct (rc_cls c); congruence.
Qed.
Print Assumptions C24_cash_rate.

(** a stop date and a step that do not match are rejected *)
Theorem C24_mismatch : forall {D P} (DS : DateSys R D P) (DC : DayCounts R D) (c : rcurve R D P) s t e p fuel,
  is_interest (rc_cls c) = true -> d_truthy t = true -> p_truthy p = true ->
  d_add s p = Ok e -> d_eqb e t = false ->
  get_cash_rate (S fuel) c s (Some t) (Some p) = Err AssertionError.
Proof.
  intros D P DS DC c s t e p fuel K Ht Hp He Hn. unfold get_cash_rate, interest_only. rewrite K. cbn [cash_rate].
  rewrite Ht, Hp. cbn [andb]. rewrite He. cbn [bind]. rewrite Hn. reflexivity.
Qed.
Print Assumptions C24_mismatch.

(** a CashRateCurve returns its value for the forward tenor ... *)
Theorem C24_cash_rate_curve : forall {D P} (DS : DateSys R D P) (tm : D -> R) (DC : DayCounts R D),
  DateLaws DS tm -> forall (c : rcurve R D P) s t v fuel, rc_cls c = CCashRate ->
  d_add s (rc_tenor c) = Ok t -> has_value c s v ->
  get_cash_rate (S fuel) c s None None = Ok v /\ get_cash_rate (S fuel) c s (Some t) None = Ok v.
Proof.
  intros D P DS tm DC L c s t v fuel K H V. unfold get_cash_rate, interest_only. rewrite K. cbn [is_interest].
  split; cbn [cash_rate bind]; rewrite K, H; cbn [bind]; rewrite eqb_refl; exact V.
Qed.
Print Assumptions C24_cash_rate_curve.

(** ... which is the simple rate of its discount factor over the tenor ... *)
Theorem C24_cash_rate_curve_consistent : forall {D P} (DS : DateSys R D P) (tm : D -> R) (DC : DayCounts R D),
  DateLaws DS tm -> forall (c : rcurve R D P) tau, additive (rc_yf c) tau -> rc_cls c = CCashRate ->
  forall s t v, d_add s (rc_tenor c) = Ok t -> d_ltb s t = true -> has_value c s v -> 0 < 1 + v * tau s t ->
  exists df, get_discount_factor 4 c s t = Ok df /\ 0 < df /\ v = (1 / df - 1) / tau s t.
Proof.
  intros D P DS tm DC L c tau A K s t v H Hlt V Q.
  assert (Nz : tau s t <> 0) by (apply (tau_ne c tau A), eqb_f; apply ltb_inv in Hlt; lra).
  exists (/ (1 + v * tau s t)). split; [|split].
  - unfold get_discount_factor, interest_only. rewrite K. cbn [is_interest].
    pose proof (tenor_factor (L:=L) c tau A 4 1 (fun i => match i with O => s | _ => t end) (fun _ => v) 0 1 K) as G.
    cbv beta in G. simpl (0 + 1)%nat in G. cbv iota in G. rewrite G; try lia.
    + f_equal. unfold prod_n. simpl. rewrite Rmult_1_r. reflexivity.
    + intros i Hi. assert (i = 0%nat) as -> by lia. auto.
    + intros i Hi. assert (i = 0%nat) as -> by lia. auto.
    + intros i Hi. assert (i = 0%nat) as -> by lia. auto.
  - now apply Rinv_0_lt_compat.
  - field. split; auto. lra.
Qed.
Print Assumptions C24_cash_rate_curve_consistent.

(** ... but for any other stop date the call never returns *)
Theorem C24_cash_rate_curve_refuted : forall {D P} (DS : DateSys R D P) (DC : DayCounts R D) (c : rcurve R D P) s t e,
  rc_cls c = CCashRate -> d_add s (rc_tenor c) = Ok e -> d_eqb t e = false ->
  forall fuel, get_cash_rate fuel c s (Some t) None = Err OutOfFuel /\
               forall p, d_add s p = Ok t -> get_cash_rate fuel c s None (Some p) = Err OutOfFuel.
Proof.
  intros D P DS DC c s t e K H N fuel. unfold get_cash_rate, interest_only. rewrite K. cbn [is_interest].
  assert (G : forall f, cash_rate f c s (Some t) None = Err OutOfFuel).
  { induction f; auto. cbn [cash_rate bind]. rewrite K, H. cbn [bind]. now rewrite N. }
  split; auto. intros p Hp. destruct fuel; auto. cbn [cash_rate bind]. rewrite Hp. cbn [bind]. rewrite K, H. cbn [bind].
  now rewrite N.
Qed.
Print Assumptions C24_cash_rate_curve_refuted.

(** * C25 *)
Theorem C25_cash_rate_curve : forall {D P} (DS : DateSys R D P) (tm : D -> R) (DC : DayCounts R D),
  DateLaws DS tm -> forall (c : rcurve R D P) tau, additive (rc_yf c) tau -> rc_cls c = CCashRate ->
  forall (ds : nat -> D) n v, schedule (rc_tenor c) ds n ->
  (forall i, (i < n)%nat -> has_value c (ds i) (v i)) ->
  (forall i, (i < n)%nat -> 0 < 1 + v i * tau (ds i) (ds (S i))) ->
  forall i j k fuel, (i <= j)%nat -> (j <= k)%nat -> (k <= n)%nat -> (n + 3 <= fuel)%nat ->
  exists x y,
    get_discount_factor fuel c (ds i) (ds j) = Ok x /\
    get_discount_factor fuel c (ds j) (ds k) = Ok y /\
    get_discount_factor fuel c (ds i) (ds k) = Ok (x * y) /\
    x = prod_n (fun m => / (1 + v (i + m)%nat * tau (ds (i + m)%nat) (ds (S (i + m))))) (j - i) /\ 0 < x.
Proof.
  intros D P DS tm DC L c tau A K ds n v Sc V Q i j k fuel Hi Hj Hk F.
  unfold get_discount_factor, interest_only. rewrite K. cbn [is_interest].
  assert (G : forall a b, (a <= b)%nat -> (b <= n)%nat -> factor fuel c (ds a) (ds b) =
    Ok (prod_n (fun m => / (1 + v (a + m)%nat * tau (ds (a + m)%nat) (ds (S (a + m))))) (b - a))).
  { intros a b Ha Hb. pose proof (tenor_factor (L:=L) c tau A fuel n ds v a (b - a)) as H.
    replace (a + (b - a))%nat with b in H by lia. apply H; auto. }
  rewrite !G by lia. eexists _, _. split; [reflexivity|]. split; [reflexivity|]. split; [|split; [reflexivity|]].
  - f_equal. replace (k - i)%nat with ((j - i) + (k - j))%nat by lia. rewrite prod_n_add. f_equal. apply prod_n_ext.
    intros m _. now replace (i + (j - i + m))%nat with (j + m)%nat by lia.
  - apply prod_n_pos. intros m Hm. apply Rinv_0_lt_compat, Q. lia.
Qed.
Print Assumptions C25_cash_rate_curve.

(** any two dates, with a shorter last period *)
Theorem C25_cash_rate_curve_stub : forall {D P} (DS : DateSys R D P) (tm : D -> R) (DC : DayCounts R D),
  DateLaws DS tm -> forall (c : rcurve R D P) tau, additive (rc_yf c) tau -> rc_cls c = CCashRate ->
  forall (ds : nat -> D) n v t, schedule (rc_tenor c) ds (S n) ->
  d_ltb (ds n) t = true -> d_leb t (ds (S n)) = true ->
  (forall d, has_value c d (v d)) ->
  (forall i, (i < n)%nat -> 0 < 1 + v (ds i) * tau (ds i) (ds (S i))) -> 0 < 1 + v (ds n) * tau (ds n) t ->
  forall fuel, (n + 3 <= fuel)%nat ->
  get_discount_factor fuel c (ds 0%nat) t =
    Ok (prod_n (fun i => / (1 + v (ds i) * tau (ds i) (ds (S i)))) n * / (1 + v (ds n) * tau (ds n) t)).
Proof.
  intros D P DS tm DC L c tau A K ds n v t Sc H1 H2 V Q1 Q2 fuel F. apply ltb_inv in H1. apply leb_inv in H2.
  unfold get_discount_factor, interest_only. rewrite K. cbn [is_interest].
  destruct (cash_factor (L:=L) c tau A fuel n ds t v) as [_ H]; auto; [split; auto|lia].
Qed.
Print Assumptions C25_cash_rate_curve_stub.

(** the evaluation ends for any two dates if tenor steps move on and reach any date *)
Theorem C25_terminates : forall {D P} (DS : DateSys R D P) (tm : D -> R) (DC : DayCounts R D),
  DateLaws DS tm -> forall (c : rcurve R D P) tau, additive (rc_yf c) tau -> rc_cls c = CCashRate ->
  steps (rc_tenor c) -> unbounded (rc_tenor c) -> monotone tau ->
  (forall d, exists v, has_value c d v /\ 0 <= v) ->
  forall s t, d_ltb s t = true ->
  exists n x, 0 < x <= 1 /\ forall fuel, (n <= fuel)%nat -> get_discount_factor fuel c s t = Ok x.
Proof.
  intros D P DS tm DC L c tau A K St U M V s t H.
  assert (exists v, forall d, has_value c d (v d) /\ 0 <= v d) as [v Hv].
  { exists (fun d => match rc_call c d with Ok y => y | Err _ => 0 end). intro d. unfold has_value.
    destruct (V d) as [y [E P0]]. unfold has_value in E. rewrite E. auto. }
  destruct (reach_any (L:=L) (rc_tenor c) s t St U H) as [n [ds [D0 [Sc [E1 E2]]]]].
  assert (T1 : forall i, (i < n)%nat -> 0 < 1 + v (ds i) * tau (ds i) (ds (S i)) /\
                         / (1 + v (ds i) * tau (ds i) (ds (S i))) <= 1).
  { intros i Hi. assert (0 < tau (ds i) (ds (S i))) by (apply M, (Sc i); lia).
    pose proof (proj2 (Hv (ds i))). assert (0 <= v (ds i) * tau (ds i) (ds (S i))) by (apply Rmult_le_pos; lra).
    split; [lra|]. rewrite <- Rinv_1. apply Rinv_le_contravar; lra. }
  assert (T2 : 0 < 1 + v (ds n) * tau (ds n) t /\ / (1 + v (ds n) * tau (ds n) t) <= 1).
  { assert (0 < tau (ds n) t) by (apply M, ltb_t; auto).
    pose proof (proj2 (Hv (ds n))). assert (0 <= v (ds n) * tau (ds n) t) by (apply Rmult_le_pos; lra).
    split; [lra|]. rewrite <- Rinv_1. apply Rinv_le_contravar; lra. }
  exists (n + 3)%nat, (prod_n (fun i => / (1 + v (ds i) * tau (ds i) (ds (S i)))) n * / (1 + v (ds n) * tau (ds n) t)).
  assert (PP : 0 < prod_n (fun i => / (1 + v (ds i) * tau (ds i) (ds (S i)))) n <= 1).
  { clear -T1. induction n; [unfold prod_n; simpl; lra|]. rewrite prod_n_last.
    destruct (IHn (fun i Hi => T1 i ltac:(lia))) as [I1 I2]. destruct (T1 n ltac:(lia)) as [J1 J2].
    apply Rinv_0_lt_compat in J1. split; [now apply Rmult_lt_0_compat|].
    apply Rle_trans with (1 * 1); [apply Rmult_le_compat; lra|lra]. }
  split.
  - destruct T2 as [J1 J2]. apply Rinv_0_lt_compat in J1. split; [apply Rmult_lt_0_compat; lra|].
    apply Rle_trans with (1 * 1); [apply Rmult_le_compat; lra|lra].
  - intros fuel F. rewrite <- D0. apply (C25_cash_rate_curve_stub DS tm DC L c tau A K); auto.
    + now apply ltb_t.
    + now apply leb_t.
    + intro d. apply Hv.
    + intros i Hi. now apply T1.
    + apply T2.
Qed.
Print Assumptions C25_terminates.

Example C25_example : exists c : rcurve R R (fperiod R),
  rc_new (DS:=FloatDates) CCashRate [0; 1] [1 / 10; 2 / 10] None None DcDefault (Some (FP 1)) = Ok c /\
  schedule (DS:=FloatDates) (rc_tenor (DS:=FloatDates) c) INR 5 /\
  get_discount_factor (DS:=FloatDates) 5 c 0 2 = Ok (/ (1 + 1 / 10) * / (1 + 2 / 10)).
Proof.
  pose proof (float_additive (DC:=no_registry)) as A.
  destruct (rc_new_linear (L:=float_laws) DcDefault _ A CCashRate [0; 1] [1 / 10; 2 / 10] None 0 (Some (FP 1))) as [c [E [B [V V']]]]; auto.
  { reflexivity. } { repeat constructor; simpl; intuition lra. } { discriminate. }
  exists c. split; auto. destruct B as [B1 [_ [B3 [_ [_ [_ [B7 [_ [B9 B10]]]]]]]]].
  assert (Sc : forall n, schedule (DS:=FloatDates) (rc_tenor (DS:=FloatDates) c) INR n).
  { intros n i _. unfold rc_tenor. rewrite B7. rewrite S_INR. split; [reflexivity|]. apply (law_ltb (DateLaws:=float_laws)). lra. }
  split; auto.
  assert (W : forall i, (i < 2)%nat -> has_value (DS:=FloatDates) c (INR i) (match i with O => 1 / 10 | _ => 2 / 10 end)).
  { intros [|[|i]] Hi; try lia; apply V; simpl; auto. }
  destruct (C25_cash_rate_curve FloatDates (fun d => d) no_registry float_laws c _ B10 B1 INR 2%nat _ (Sc 2%nat) W)
    with (i := 0%nat) (j := 2%nat) (k := 2%nat) (fuel := 5%nat) as [x [y [Hx [_ [_ [-> _]]]]]]; try lia.
  - intros [|[|i]] Hi; try lia; simpl; lra.
  - change (INR 0) with 0 in Hx. change (INR 2) with 2 in Hx. rewrite Hx. f_equal.
    unfold prod_n. simpl. replace (1 - 0) with 1 by lra. replace (1 + 1 - 1) with 1 by lra. rewrite !Rmult_1_r. reflexivity.
Qed.

(** * C26 *)
(** what the documentation promises: the sum of df(t_i) * tau(t_{i-1}, t_i) *)
Fixpoint annuity_value {D} (df : D -> R) (tau : D -> D -> R) (dates : list D) : R :=
  match dates with
  | [] => 0
  | a :: l => match l with
              | [] => 0
              | b :: _ => df b * tau a b + annuity_value df tau l
              end
  end.

(** the result is zero for every list of dates *)
Theorem C26_swap_annuity_zero : forall {D P} (DS : DateSys R D P) (tm : D -> R) (DC : DayCounts R D),
  DateLaws DS tm -> forall (c : rcurve R D P) tau, additive (rc_yf c) tau -> is_interest (rc_cls c) = true ->
  forall fuel dates, (forall d, In d dates -> exists df, get_discount_factor1 fuel c d = Ok df) ->
  get_swap_annuity fuel c dates = Ok 0.
Proof.
  intros D P DS tm DC L c tau A K fuel dates H. unfold get_swap_annuity, interest_only. rewrite K.
  assert (G : forall l, (forall d, In d l -> exists df, get_discount_factor1 fuel c d = Ok df) ->
    mapM (fun se => df <- get_discount_factor1 fuel c (snd se) ;; t <- rc_yf c (fst se) (snd se) ;; Ok (nmul df t))
         (combine (removelast l) l) = Ok (repeat 0 (length (removelast l)))).
  { induction l as [|a l IH]; intro Hl; [reflexivity|]. destruct l as [|b l]; [reflexivity|].
    change (removelast (a :: b :: l)) with (a :: removelast (b :: l)). cbn [combine mapM fst snd length repeat].
    destruct (Hl a) as [df E]; [simpl; auto|]. rewrite E. cbn [bind]. rewrite (add_val _ _ A), (tau_self A). cbn [bind].
    rewrite IH by (intros; apply Hl; simpl; auto). cbn [bind]. rn. now rewrite Rmult_0_r. }
  rewrite G by auto. cbn [bind]. f_equal.
  induction (length (removelast dates)); simpl; auto. unfold nsum in *. simpl. rn. rewrite Rplus_0_l. exact IHn.
Qed.
Print Assumptions C26_swap_annuity_zero.

Theorem C26_swap_annuity_refuted : exists c : rcurve R R (fperiod R),
  rc_new (DS:=FloatDates) CZeroRate [1; 2] [0; 0] None (Some 0) DcDefault None = Ok c /\
  (forall d fuel, get_discount_factor1 (DS:=FloatDates) (2 + fuel) c d = Ok 1) /\
  annuity_value (fun _ => 1) (fun a b => b - a) [0; 1; 2] = 2 /\
  forall fuel, get_swap_annuity (DS:=FloatDates) (2 + fuel) c [0; 1; 2] = Ok 0.
Proof.
  pose proof (float_additive (DC:=no_registry)) as A.
  destruct (rc_new_linear (L:=float_laws) DcDefault _ A CZeroRate [1; 2] [0; 0] (Some 0) 0 None) as [c [E [B [V V']]]]; auto.
  { reflexivity. } { repeat constructor; simpl; intuition lra. } { discriminate. }
  exists c. split; auto. destruct B as [B1 [_ [B3 [_ [_ [_ [_ [_ [B9 B10]]]]]]]]].
  assert (Z : forall d, has_value (DS:=FloatDates) c d 0).
  { intro d. destruct (V' d) as [y [Ey PL]]. specialize (PL (fun d => d) (fun a b => eq_refl)). unfold has_value. rewrite Ey. f_equal.
    assert (S0 : forall a ya, In (a, ya) (combine (map (fun d : R => d) [1; 2]) [0; 0]) -> ya = 0).
    { simpl. intros a ya [I|[I|[]]]; inversion I; auto. }
    destruct PL as [[a [ya [b [yb [[I1 [I2 _]] H]]]]]|[[a [I H]]|[b [I H]]]].
    - destruct H as [_ H]. rewrite (S0 _ _ I1), (S0 _ _ I2) in H. rewrite H. unfold chord, Rdiv. ring.
    - exact (S0 _ _ I).
    - exact (S0 _ _ I). }
  assert (DF : forall d fuel, get_discount_factor1 (DS:=FloatDates) (2 + fuel) c d = Ok 1).
  { intros d fuel. unfold get_discount_factor1, from_origin. rewrite B3.
    unfold get_discount_factor, interest_only. rewrite B1. cbn [is_interest Nat.add].
    rewrite (flat_factor (L:=float_laws) c 0 _ B3 B10 fuel 0 d 0 0); auto; [|left; auto].
    f_equal. replace (- (0 * (d - 0) - 0 * (0 - 0))) with 0 by lra. apply exp_0. }
  split; auto. split; [simpl; lra|]. intro fuel.
  apply (C26_swap_annuity_zero FloatDates (fun d => d) no_registry float_laws c _ B10).
  - now rewrite B1.
  - intros d _. exists 1. apply DF.
Qed.
Print Assumptions C26_swap_annuity_refuted.

(** * C29 *)
(** the value of a spread *)
Definition spread_value {D P} {DS : DateSys R D P} {DC : DayCounts R D} (s : dcurve R D + rcurve R D P) (d : D) : res R :=
  match s with inl e => dc_val e d | inr r => rc_call r d end.

Theorem C29_spread_adds : forall {D P} (DS : DateSys R D P) (DC : DayCounts R D) (c : rcurve R D P) s,
  rc_spread c = None ->
  exists c', set_spread c (Some s) = Ok c' /\
    (forall d v w, has_value c d v -> spread_value s d = Ok w -> has_value c' d (v + w)) /\
    (forall s', set_spread c' (Some s') = Err TypeError) /\
    set_spread c' None = Ok c.
Proof.
  intros D P DS DC [k c t sp] s H. cbn in H. subst sp. exists (mkR k c t (Some s)). split; [reflexivity|].
  split; [|split; reflexivity]. intros d v w Hv Hw. unfold has_value in *. rewrite rc_call_plain in Hv.
  cbn [rc_call]. unfold spread_value in Hw. destruct s as [e|r]; rewrite Hw, Hv; reflexivity.
Qed.
Print Assumptions C29_spread_adds.

(** any sequence of assignments: a rejected one (TypeError) leaves the curve as it is *)
Definition assign_spread {D P} (c : rcurve R D P) (s : option (dcurve R D + rcurve R D P)) : rcurve R D P :=
  match set_spread c s with Ok c' => c' | Err _ => c end.
(** the spread after the assignments: reset by None, replaced only if there was none *)
Fixpoint last_spread {A} (now : option A) (l : list (option A)) : option A :=
  match l with
  | [] => now
  | None :: l' => last_spread None l'
  | Some s :: l' => last_spread (match now with Some s' => Some s' | None => Some s end) l'
  end.

Theorem C29_history : forall {D P} (DS : DateSys R D P) (DC : DayCounts R D) (c : rcurve R D P) l,
  let c' := fold_left assign_spread l c in
  rc_spread c' = last_spread (rc_spread c) l /\
  rc_cls c' = rc_cls c /\ rc_domain c' = rc_domain c /\ rc_origin c' = rc_origin c /\
  (forall d, dc_val (rc_dc c') d = dc_val (rc_dc c) d) /\
  (rc_spread c = None -> last_spread None l = None -> c' = c) /\
  (forall s d v w, rc_spread c = None -> last_spread None l = Some s ->
     has_value c d v -> spread_value s d = Ok w -> has_value c' d (v + w)).
Proof.
  intros D P DS DC c l c'.
  assert (G : forall (c : rcurve R D P), fold_left assign_spread l c = mkR (rc_cls c) (rc_dc c) (rc_tenor0 c) (last_spread (rc_spread c) l)).
  { clear. induction l as [|[s|] l IH]; intros [k c t sp]; cbn [fold_left last_spread rc_spread rc_cls rc_dc rc_tenor0].
    - reflexivity.
    - destruct sp; unfold assign_spread, set_spread; cbn; rewrite IH; reflexivity.
    - unfold assign_spread, set_spread; cbn; rewrite IH; reflexivity. }
  unfold c'. rewrite G. cbn [rc_spread rc_cls]. unfold rc_domain, rc_origin. cbn [rc_dc]. repeat split; auto.
  - intros H H'. destruct c as [k c t sp]. cbn in H. subst sp. cbn. now rewrite H'.
  - intros s d v w H H' Hv Hw. destruct c as [k c t sp]. cbn in H. subst sp.
    cbn [rc_spread rc_cls rc_dc rc_tenor0]. rewrite H'. unfold has_value in *. rewrite rc_call_plain in Hv.
    cbn [rc_call]. unfold spread_value in Hw. destruct s as [e|r]; rewrite Hw, Hv; reflexivity.
Qed.
Print Assumptions C29_history.

Example C29_example : exists c s s' : rcurve R R (fperiod R),
  rc_new (DS:=FloatDates) CZeroRate [1; 2] [1 / 10; 2 / 10] None (Some 0) DcDefault None = Ok c /\
  rc_new (DS:=FloatDates) CZeroRate [1] [1 / 100] None (Some 0) DcDefault None = Ok s /\
  rc_new (DS:=FloatDates) CZeroRate [1] [2 / 100] None (Some 0) DcDefault None = Ok s' /\
  rc_spread c = None /\
  last_spread None [Some (inr s); Some (inr s'); None; Some (inr s)] = Some (@inr (dcurve R R) _ s) /\
  rc_call (DS:=FloatDates) (fold_left assign_spread [Some (inr s); Some (inr s'); None; Some (inr s)] c) 1 = Ok (1 / 10 + 1 / 100).
Proof.
  pose proof (float_additive (DC:=no_registry)) as A.
  destruct (rc_new_linear (L:=float_laws) DcDefault _ A CZeroRate [1; 2] [1 / 10; 2 / 10] (Some 0) 0 None) as [c [E [B [V _]]]]; auto.
  { reflexivity. } { repeat constructor; simpl; intuition lra. } { discriminate. }
  destruct (rc_new_linear (L:=float_laws) DcDefault _ A CZeroRate [1] [1 / 100] (Some 0) 0 None) as [s [E' [_ [V' _]]]]; auto.
  { reflexivity. } { repeat constructor; simpl; intuition lra. } { discriminate. }
  destruct (rc_new_linear (L:=float_laws) DcDefault _ A CZeroRate [1] [2 / 100] (Some 0) 0 None) as [s' [E'' _]]; auto.
  { reflexivity. } { repeat constructor; simpl; intuition lra. } { discriminate. }
  assert (Sp : rc_spread c = None) by apply B.
  exists c, s, s'. repeat split; auto.
  destruct (C29_history FloatDates no_registry c [Some (inr s); Some (inr s'); None; Some (inr s)]) as [_ [_ [_ [_ [_ [_ H]]]]]].
  apply (H (inr s)); auto.
  - apply V. simpl; auto.
  - apply V'. simpl; auto.
Qed.
