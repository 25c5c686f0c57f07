(** Properties C20 - C22: interest rate curves
    (dcf/curves/curve.py:651-785, dcf/curves/interestratecurve.py).

    [c] is any curve object (any data, interpolation, fixings, spread) whose values at the
    dates in question exist, [tau] its year fraction function, assumed additive, dates are
    of any type satisfying [DateLaws].  [fuel] bounds the number of loop rounds and
    nested calls; results hold for every sufficiently large bound. *)
From Coq Require Import Reals Lra Lia List Bool ZArith.
From Verif Require Import Num Py Spec SInterpolation SCurve SDates SRateCurve LBase LCompounding MCompounding MInterpolation MDates
  MCurve MRateCurve LDates LFuel LCurve LCurve2 LDateCurve LRateCurve LRateCurve2 LRateCurve3 LRateCurve4.
Import ListNotations.
Open Scope R_scope.

#[local] Instance no_registry {D} : DayCounts R D := [].

(** * C20 *)
(** a DiscountFactorCurve without value at its origin raises there, and a spread changes
    the factor of the empty period at origin *)
Theorem C20_empty_period_refuted :
  (exists c : rcurve R R (fperiod R),
     rc_new (DS:=FloatDates) CDiscountFactor [1; 2] [9 / 10; 8 / 10] None (Some 0) DcDefault None = Ok c /\
     forall fuel, get_discount_factor (DS:=FloatDates) (S fuel) c 0 0 = Err TypeError) /\
  (exists c c' s : rcurve R R (fperiod R),
     rc_new (DS:=FloatDates) CDiscountFactor [0; 1] [1; 9 / 10] None (Some 0) DcDefault None = Ok c /\
     rc_new (DS:=FloatDates) CZeroRate [1] [1 / 100] None None DcDefault None = Ok s /\
     set_spread c (Some (inr s)) = Ok c' /\
     forall fuel, get_discount_factor (DS:=FloatDates) (S fuel) c' 0 0 = Ok (101 / 100)).
Proof.
  pose proof (float_additive (DC:=no_registry)) as A.
  split.
  - destruct (rc_new_rate (L:=float_laws) DcDefault _ A CDiscountFactor [1; 2] [9 / 10; 8 / 10] [9 / 10; 8 / 10]
                (Some 0) 0 None) as [c [E [B [_ [_ F]]]]]; auto.
    { left; auto. } { repeat constructor; simpl; intuition lra. } { exists 1. simpl. split; [auto|lra]. }
    { simpl. intros y H. intuition lra. }
    exists c. split; auto. intro fuel. destruct B as [B1 [_ [B3 _]]].
    unfold get_discount_factor, interest_only. rewrite B1. cbn [is_interest factor]. cbv zeta. rewrite B1.
    unfold at_origin. rewrite B3. cbn. rewrite Reqb_refl. apply F; auto. simpl. intuition lra.
  - destruct (rc_new_rate (L:=float_laws) DcDefault _ A CDiscountFactor [0; 1] [1; 9 / 10] [1; 9 / 10]
                (Some 0) 0 None) as [c [E [B [V _]]]]; auto.
    { left; auto. } { repeat constructor; simpl; intuition lra. } { exists 1. simpl. split; [auto|lra]. }
    { simpl. intros y H. intuition lra. }
    destruct (rc_new_linear (L:=float_laws) DcDefault _ A CZeroRate [1] [1 / 100] None 1 None) as [s [E' [_ [_ V']]]]; auto.
    { reflexivity. } { repeat constructor; simpl; tauto. } { discriminate. }
    destruct c as [k d t sp]. destruct B as [B1 [_ [B3 [_ [_ [_ [_ [B8 _]]]]]]]]. cbn in B1, B8. subst k sp.
    exists (mkR CDiscountFactor d t None), (mkR CDiscountFactor d t (Some (inr s))), s.
    repeat split; auto. intro fuel.
    unfold get_discount_factor, interest_only. cbn [rc_cls is_interest factor]. cbv zeta.
    cbn [rc_cls]. unfold at_origin. unfold rc_origin in *. cbn [rc_dc] in *. rewrite B3. cbn [d_is FloatDates].
    rewrite Reqb_refl. cbn [rc_call].
    destruct (V' 0) as [y [Ey PL]]. specialize (PL (fun d => d) (fun a b => eq_refl)).
    assert (y = 1 / 100).
    { destruct PL as [[a [ya [b [yb [[I1 [I2 [Hlt _]]] _]]]]]|[[a [I _]]|[b [I _]]]]; simpl in *.
      - destruct I1 as [I1|[]], I2 as [I2|[]]. inversion I1; inversion I2. lra.
      - destruct I as [I|[]]. inversion I. auto.
      - destruct I as [I|[]]. inversion I. auto. }
    rewrite Ey. cbn [bind]. assert (rc_call (mkR CDiscountFactor d t None) 0 = Ok 1) as H0 by (apply V; simpl; auto).
    rewrite rc_call_plain in H0. rewrite H0. cbn [bind]. rn. f_equal. lra.
Qed.
Print Assumptions C20_empty_period_refuted.

(** all other classes: one, whatever the values are *)
Theorem C20_discount_factor : forall {D P} (DS : DateSys R D P) (tm : D -> R) (DC : DayCounts R D),
  DateLaws DS tm -> forall (c : rcurve R D P) t fuel,
  rc_cls c = CZeroRate \/ rc_cls c = CShortRate \/ rc_cls c = CCashRate ->
  get_discount_factor (S fuel) c t t = Ok 1.
Proof.
  intros D P DS tm DC L c t fuel K. unfold get_discount_factor, interest_only.
  replace (is_interest (rc_cls c)) with true by (destruct K as [->|[-> | ->]]; reflexivity).
  apply base_factor_refl; [| | |apply eqb_refl]; unfold prob_cls; destruct K as [->|[-> | ->]]; intuition discriminate.
Qed.
Print Assumptions C20_discount_factor.

Theorem C20_survival_prob : forall {D P} (DS : DateSys R D P) (tm : D -> R) (DC : DayCounts R D),
  DateLaws DS tm -> forall (c : rcurve R D P) t fuel,
  rc_cls c = CFlatIntensity \/ rc_cls c = CHazard ->
  get_survival_prob (S fuel) c t t = Ok 1.
Proof.
  intros D P DS tm DC L c t fuel K. unfold get_survival_prob, credit_only.
  replace (is_credit (rc_cls c)) with true by (destruct K as [-> | ->]; reflexivity).
  apply base_factor_refl; [| | |apply eqb_refl]; unfold prob_cls; destruct K as [-> | ->]; intuition discriminate.
Qed.
Print Assumptions C20_survival_prob.

(** discount factor curves: at dates with a value, which has to be one at the origin *)
Theorem C20_discount_factor_curve : forall {D P} (DS : DateSys R D P) (tm : D -> R) (DC : DayCounts R D),
  DateLaws DS tm -> forall (c : rcurve R D P) t v fuel,
  rc_cls c = CDiscountFactor -> has_value c t v -> v <> 0 -> (is_origin c t -> v = 1) ->
  get_discount_factor (S fuel) c t t = Ok 1.
Proof.
  intros D P DS tm DC L c t v fuel K V Nz O. unfold get_discount_factor, interest_only. rewrite K. cbn [is_interest].
  rewrite (df_factor_eq c fuel t t v v K V V Nz). f_equal.
  destruct (at_origin c t) eqn:E.
  - unfold at_origin in E. destruct (rc_origin c) eqn:Eo; [|discriminate]. apply O. exists d. auto.
  - field. auto.
Qed.
Print Assumptions C20_discount_factor_curve.

(** survival probability curves: likewise; zero where survival is certainly lost *)
Theorem C20_survival_curve : forall {D P} (DS : DateSys R D P) (tm : D -> R) (DC : DayCounts R D),
  DateLaws DS tm -> forall (c : rcurve R D P) t v fuel,
  rc_cls c = CSurvival \/ rc_cls c = CDefault -> has_value c t v ->
  2 / IZR (2 ^ 1022) <= v -> (is_origin c t -> v = 1) ->
  get_survival_prob (S fuel) c t t = Ok 1.
Proof.
  intros D P DS tm DC L c t v fuel K V Nz O. unfold get_survival_prob, credit_only.
  replace (is_credit (rc_cls c)) with true by (destruct K as [-> | ->]; reflexivity).
  destruct (at_origin c t) eqn:E.
  - rewrite (prob_origin c fuel t t v); auto.
    + f_equal. unfold at_origin in E. destruct (rc_origin c) eqn:Eo; [|discriminate]. apply O. exists d. auto.
    + unfold prob_cls. tauto.
  - apply (surv_refl c fuel t t v); auto. apply eqb_refl.
Qed.
Print Assumptions C20_survival_curve.

Theorem C20_marginal_curve : forall {D P} (DS : DateSys R D P) (tm : D -> R) (DC : DayCounts R D),
  DateLaws DS tm -> forall (c : rcurve R D P) t v fuel,
  rc_cls c = CMargSurvival \/ rc_cls c = CMargDefault -> has_value c t v ->
  2 / IZR (2 ^ 1022) <= v -> get_survival_prob (S fuel) c t t = Ok 1.
Proof.
  intros D P DS tm DC L c t v fuel K V Nz. unfold get_survival_prob, credit_only.
  replace (is_credit (rc_cls c)) with true by (destruct K as [-> | ->]; reflexivity).
  cbn [factor]. cbv zeta. rewrite eqb_refl. unfold has_value in V. rewrite V. cbn [bind]. rewrite (not_tiny_true v Nz).
  destruct K as [-> | ->]; reflexivity.
Qed.
Print Assumptions C20_marginal_curve.

(** * C21 *)
(** zero rate curves: multiplicative for all dates in any order, with any spread *)
Theorem C21_zero_rate_curve : forall {D P} (DS : DateSys R D P) (tm : D -> R) (DC : DayCounts R D),
  DateLaws DS tm -> forall (c : rcurve R D P) o tau,
  rc_origin c = Some o -> additive (rc_yf c) tau -> date_values c -> rc_cls c = CZeroRate ->
  forall s t u a b e, has_value c s a -> has_value c t b -> has_value c u e ->
  forall fuel, (2 <= fuel)%nat ->
  exists x y, get_discount_factor fuel c s t = Ok x /\ get_discount_factor fuel c t u = Ok y /\
    get_discount_factor fuel c s u = Ok (x * y) /\
    x = exp (- (b * tau o t - a * tau o s)) /\ 0 < x.
Proof.
  intros D P DS tm DC L c o tau HO A DV K s t u a b e Ha Hb He fuel F.
  destruct fuel as [|[|n]]; try lia. unfold get_discount_factor, interest_only. rewrite K. cbn [is_interest].
  assert (K' : flat_cls (rc_cls c)) by (left; auto).
  exists (exp (- (b * tau o t - a * tau o s))), (exp (- (e * tau o u - b * tau o t))).
  split; [now apply flat_factor|]. split; [now apply flat_factor|]. split; [|split; [auto|apply exp_pos]].
  rewrite (flat_factor c o tau HO A n s u a e) by auto. f_equal. rewrite <- exp_plus. f_equal. lra.
Qed.
Print Assumptions C21_zero_rate_curve.

Theorem C21_flat_intensity_curve : forall {D P} (DS : DateSys R D P) (tm : D -> R) (DC : DayCounts R D),
  DateLaws DS tm -> forall (c : rcurve R D P) o tau,
  rc_origin c = Some o -> additive (rc_yf c) tau -> date_values c -> rc_cls c = CFlatIntensity ->
  forall s t u a b e, has_value c s a -> has_value c t b -> has_value c u e ->
  forall fuel, (2 <= fuel)%nat ->
  exists x y, get_survival_prob fuel c s t = Ok x /\ get_survival_prob fuel c t u = Ok y /\
    get_survival_prob fuel c s u = Ok (x * y) /\
    x = exp (- (b * tau o t - a * tau o s)) /\ 0 < x.
Proof.
  intros D P DS tm DC L c o tau HO A DV K s t u a b e Ha Hb He fuel F.
  destruct fuel as [|[|n]]; try lia. unfold get_survival_prob, credit_only. rewrite K. cbn [is_credit is_interest is_vol negb andb].
  assert (K' : flat_cls (rc_cls c)) by (right; auto).
  exists (exp (- (b * tau o t - a * tau o s))), (exp (- (e * tau o u - b * tau o t))).
  split; [now apply flat_factor|]. split; [now apply flat_factor|]. split; [|split; [auto|apply exp_pos]].
  rewrite (flat_factor c o tau HO A n s u a e) by auto. f_equal. rewrite <- exp_plus. f_equal. lra.
Qed.
Print Assumptions C21_flat_intensity_curve.

(** discount factor curves: if the value at the origin is one *)
Theorem C21_discount_factor_curve : forall {D P} (DS : DateSys R D P) (tm : D -> R) (DC : DayCounts R D),
  DateLaws DS tm -> forall (c : rcurve R D P), rc_cls c = CDiscountFactor ->
  forall s t u a b e, has_value c s a -> has_value c t b -> has_value c u e ->
  a <> 0 -> b <> 0 -> (is_origin c t -> b = 1) ->
  forall fuel, (1 <= fuel)%nat ->
  exists x y, get_discount_factor fuel c s t = Ok x /\ get_discount_factor fuel c t u = Ok y /\
    get_discount_factor fuel c s u = Ok (x * y) /\
    (is_origin c s -> x = b) /\ (~ is_origin c s -> x = b / a).
Proof.
  intros D P DS tm DC L c K s t u a b e Ha Hb He Na Nb O fuel F.
  destruct fuel as [|n]; [lia|]. unfold get_discount_factor, interest_only. rewrite K. cbn [is_interest].
  assert (O' : at_origin c t = true -> b = 1).
  { unfold at_origin. destruct (rc_origin c) eqn:Eo; [|discriminate]. intro H. apply O. exists d. auto. }
  assert (OS : at_origin c s = true <-> is_origin c s).
  { unfold at_origin, is_origin. destruct (rc_origin c) as [o|].
    - split; [intro H; exists o; auto|intros [o' [H H']]; inversion H; subst; auto].
    - split; [discriminate|intros [o' [H _]]; discriminate]. }
  exists (if at_origin c s then b else b / a), (if at_origin c t then e else e / b).
  split; [now apply df_factor_eq|]. split; [now apply df_factor_eq|]. split; [|split].
  - rewrite (df_factor_eq c n s u a e) by auto. f_equal.
    destruct (at_origin c s), (at_origin c t); try (rewrite O' by auto); field; auto.
  - intro H. apply OS in H. now rewrite H.
  - intro H. destruct (at_origin c s); auto. exfalso. apply H. now apply OS.
Qed.
Print Assumptions C21_discount_factor_curve.

Theorem C21_survival_curve : forall {D P} (DS : DateSys R D P) (tm : D -> R) (DC : DayCounts R D),
  DateLaws DS tm -> forall (c : rcurve R D P), rc_cls c = CSurvival \/ rc_cls c = CDefault -> date_values c ->
  forall s t u a b e, has_value c s a -> has_value c t b -> has_value c u e ->
  2 / IZR (2 ^ 1022) <= a -> 2 / IZR (2 ^ 1022) <= b -> 2 / IZR (2 ^ 1022) <= e ->
  (forall d v, is_origin c d -> has_value c d v -> v = 1) ->
  forall fuel, (1 <= fuel)%nat ->
  exists x y, get_survival_prob fuel c s t = Ok x /\ get_survival_prob fuel c t u = Ok y /\
    get_survival_prob fuel c s u = Ok (x * y) /\ x = b / a.
Proof.
  intros D P DS tm DC L c K DV s t u a b e Ha Hb He Na Nb Ne O fuel F.
  assert (FM : 0 < 2 / IZR (2 ^ 1022)).
  { apply Rmult_lt_0_compat; [lra|]. apply Rinv_0_lt_compat, IZR_lt. reflexivity. }
  destruct fuel as [|n]; [lia|]. unfold get_survival_prob, credit_only.
  replace (is_credit (rc_cls c)) with true by (destruct K as [-> | ->]; reflexivity).
  assert (G : forall p q v w, has_value c p v -> has_value c q w -> 2 / IZR (2 ^ 1022) <= v ->
              factor (S n) c p q = Ok (w / v)).
  { intros p q v w Hp Hq Hv. assert (KP : prob_cls (rc_cls c)) by (unfold prob_cls; tauto).
    destruct (at_origin c p) eqn:E.
    - rewrite (prob_origin c n p q w KP E Hq). f_equal.
      assert (v = 1) as ->; [|field]. apply (O p v); auto.
      unfold at_origin in E. destruct (rc_origin c) eqn:Eo; [|discriminate]. exists d. auto.
    - destruct (d_eqb p q) eqn:Q.
      + rewrite (surv_refl c n p q v); auto. f_equal. unfold has_value in *. rewrite (DV p q Q) in Hp.
        assert (v = w) by congruence. subst. field. lra.
      + rewrite (prob_factor c n p q v w KP Q Hp Hq) by lra. now rewrite E. }
  exists (b / a), (e / b). split; [now apply G|]. split; [now apply G|]. split; auto.
  rewrite (G s u a e) by auto. f_equal. field. lra.
Qed.
Print Assumptions C21_survival_curve.

(** with a spread the value at origin is not one, and multiplicativity fails there *)
Theorem C21_discount_factor_spread_refuted : exists c c' : rcurve R R (fperiod R), exists s : dcurve R R,
  rc_new (DS:=FloatDates) CDiscountFactor [0; 1; 2] [1; 9 / 10; 8 / 10] None (Some 0) DcDefault None = Ok c /\
  dc_new (DS:=FloatDates) linear_scheme [1] [1 / 100] None None DcDefault = Ok s /\
  set_spread c (Some (inl s)) = Ok c' /\
  forall fuel, exists x y z,
    get_discount_factor (DS:=FloatDates) (S fuel) c' 1 0 = Ok x /\
    get_discount_factor (DS:=FloatDates) (S fuel) c' 0 2 = Ok y /\
    get_discount_factor (DS:=FloatDates) (S fuel) c' 1 2 = Ok z /\ x * y <> z.
Proof.
  pose proof (float_additive (DC:=no_registry)) as A.
  destruct (rc_new_rate (L:=float_laws) DcDefault _ A CDiscountFactor [0; 1; 2] [1; 9 / 10; 8 / 10] [1; 9 / 10; 8 / 10]
                (Some 0) 0 None) as [c [E [B [V _]]]]; auto.
  { left; auto. } { repeat constructor; simpl; intuition lra. } { exists 1. simpl. split; [auto|lra]. }
  { simpl. intros y H. intuition lra. }
  destruct (dstate_exists (tm:=fun d : R => d) DcDefault (fun a b => b - a) linear_scheme None None 1 [1] [1 / 100]) as [s S]; auto.
  { repeat constructor; simpl; tauto. }
  { apply adm_linear. apply (times_distinct (L:=float_laws) DcDefault _ A); auto. repeat constructor; simpl; tauto. }
  assert (VS : forall x, dc_val (DS:=FloatDates) s x = Ok (1 / 100)).
  { intro x. destruct (dstate_linear (L:=float_laws) DcDefault _ A None 1 [1] [1 / 100] s x (fun d => d)) as [y [Ey PL]]; auto.
    { discriminate. }
    apply dc_val_some in Ey. rewrite Ey. f_equal.
    destruct PL as [[a [ya [b [yb [[I1 [I2 [Hlt _]]] _]]]]]|[[a [I _]]|[b [I _]]]]; simpl in *.
    - destruct I1 as [I1|[]], I2 as [I2|[]]. inversion I1; inversion I2. lra.
    - destruct I as [I|[]]. inversion I. auto.
    - destruct I as [I|[]]. inversion I. auto. }
  apply (dstate_iff (L:=float_laws) DcDefault _ A linear_scheme [1] [1 / 100] None None 1) in S; auto;
    [|repeat constructor; simpl; tauto].
  destruct c as [k d t sp]. destruct B as [B1 [_ [B3 [_ [_ [_ [_ [B8 _]]]]]]]]. cbn in B1, B8. subst k sp.
  set (c' := mkR CDiscountFactor d t (Some (inl s))).
  assert (VC : forall x y, In (x, y) (combine [0; 1; 2] [1; 9 / 10; 8 / 10]) -> rc_call (DS:=FloatDates) c' x = Ok (y + 1 / 100)).
  { intros x y I. apply V in I. rewrite rc_call_plain in I. unfold c'. cbn [rc_call]. rewrite VS, I. reflexivity. }
  assert (AO : forall x, at_origin (DS:=FloatDates) c' x = Reqb x 0).
  { intro x. unfold at_origin, c', rc_origin. cbn [rc_dc]. unfold rc_origin in B3. cbn [rc_dc] in B3. rewrite B3. reflexivity. }
  exists (mkR CDiscountFactor d t None), c', s. split; auto. split; auto. split; [reflexivity|].
  intro fuel. unfold get_discount_factor, interest_only. cbn [c' rc_cls is_interest].
  exists ((1 + 1 / 100) / (9 / 10 + 1 / 100)), (8 / 10 + 1 / 100), ((8 / 10 + 1 / 100) / (9 / 10 + 1 / 100)).
  assert (N1 : Reqb 1 0 = false) by (apply Reqb_false; lra).
  split; [|split; [|split]].
  - rewrite (df_factor_eq c' fuel 1 0 (9 / 10 + 1 / 100) (1 + 1 / 100)); try reflexivity; try lra;
      [now rewrite AO, N1| |]; apply VC; simpl; auto.
  - rewrite (df_factor_eq c' fuel 0 2 (1 + 1 / 100) (8 / 10 + 1 / 100)); try reflexivity; try lra;
      [now rewrite AO, Reqb_refl| |]; apply VC; simpl; auto.
  - rewrite (df_factor_eq c' fuel 1 2 (9 / 10 + 1 / 100) (8 / 10 + 1 / 100)); try reflexivity; try lra;
      [now rewrite AO, N1| |]; apply VC; simpl; auto.
  - lra.
Qed.
Print Assumptions C21_discount_factor_spread_refuted.

(** every zero rate curve built from a list of points, and every discount factor curve
    whose first point is the origin with factor one, meets the hypotheses *)
Example C21_example_zero : exists c : rcurve R R (fperiod R),
  rc_new (DS:=FloatDates) CZeroRate [1; 2] [1 / 10; 2 / 10] None (Some 0) DcDefault None = Ok c /\
  (forall d, exists v, has_value (DS:=FloatDates) c d v) /\ date_values (DS:=FloatDates) c /\
  get_discount_factor (DS:=FloatDates) 2 c 1 2 = Ok (exp (- (2 / 10 * (2 - 0) - 1 / 10 * (1 - 0)))).
Proof.
  pose proof (float_additive (DC:=no_registry)) as A.
  destruct (rc_new_linear (L:=float_laws) DcDefault _ A CZeroRate [1; 2] [1 / 10; 2 / 10] (Some 0) 0 None) as [c [E [B [V V']]]]; auto.
  { reflexivity. } { repeat constructor; simpl; intuition lra. } { discriminate. }
  exists c. split; auto. destruct B as [B1 [_ [B3 [_ [_ [_ [_ [_ [B9 B10]]]]]]]]].
  assert (W : forall d, exists v, has_value (DS:=FloatDates) c d v).
  { intro d. destruct (V' d) as [v [H _]]. exists v. exact H. }
  split; auto. split; auto.
  destruct (W 2) as [e He].
  destruct (C21_zero_rate_curve FloatDates (fun d => d) no_registry float_laws c 0 _ B3 B10 B9 B1 1 2 2 (1 / 10) (2 / 10) e)
    with (fuel := 2%nat) as [x [y [Hx [_ [_ [-> _]]]]]]; auto.
  - apply V. simpl; auto.
  - apply V. simpl; auto.
Qed.

Example C21_example_discount_factor : exists c : rcurve R R (fperiod R),
  rc_new (DS:=FloatDates) CDiscountFactor [0; 1; 2] [1; 9 / 10; 8 / 10] None (Some 0) DcDefault None = Ok c /\
  (forall d, exists v, has_value (DS:=FloatDates) c d v /\ 0 < v /\ (is_origin (DS:=FloatDates) c d -> v = 1)).
Proof.
  pose proof (float_additive (DC:=no_registry)) as A.
  destruct (rc_new_rate (L:=float_laws) DcDefault _ A CDiscountFactor [0; 1; 2] [1; 9 / 10; 8 / 10] [1; 9 / 10; 8 / 10]
                (Some 0) 0 None) as [c [E [B [V [V' _]]]]]; auto.
  { left; auto. } { repeat constructor; simpl; intuition lra. } { exists 1. simpl. split; [auto|lra]. }
  { simpl. intros y H. intuition lra. }
  exists c. split; auto. intro d. destruct B as [_ [_ [B3 _]]].
  destruct (Req_dec d 0) as [->|N].
  - exists 1. split; [apply V; simpl; auto|]. split; [lra|auto].
  - destruct (V' d N) as [r [H _]]. exists (exp (- r * (d - 0))). split; [exact H|]. split; [apply exp_pos|].
    intros [o [Ho Hi]]. rewrite B3 in Ho. inversion Ho; subst o. cbn in Hi. apply Reqb_true in Hi. contradiction.
Qed.

(** * C22 *)
Theorem C22_discount_factor_of_zero_rate : forall {D P} (DS : DateSys R D P) (tm : D -> R) (DC : DayCounts R D),
  DateLaws DS tm -> forall (c : rcurve R D P) tau, additive (rc_yf c) tau ->
  forall fuel s t r, d_eqb s t = false -> get_zero_rate fuel c s t = Ok r ->
  forall fuel', (fuel < fuel')%nat -> get_discount_factor fuel' c s t = Ok (exp (- (r * tau s t))).
Proof.
  intros D P DS tm DC L c tau A fuel s t r NE H fuel' F. unfold get_zero_rate, get_discount_factor, interest_only in *.
  destruct (is_interest (rc_cls c)); [|discriminate]. eapply factor_of_rate; eauto.
Qed.
Print Assumptions C22_discount_factor_of_zero_rate.

Theorem C22_zero_rate_of_discount_factor : forall {D P} (DS : DateSys R D P) (tm : D -> R) (DC : DayCounts R D),
  DateLaws DS tm -> forall (c : rcurve R D P) tau, additive (rc_yf c) tau ->
  forall fuel s t df, d_eqb s t = false -> get_discount_factor fuel c s t = Ok df -> 0 < df ->
  forall fuel', (fuel < fuel')%nat -> get_zero_rate fuel' c s t = Ok (- ln df / tau s t).
Proof.
  intros D P DS tm DC L c tau A fuel s t df NE H Hp fuel' F. unfold get_zero_rate, get_discount_factor, interest_only in *.
  destruct (is_interest (rc_cls c)); [|discriminate]. eapply rate_of_factor; eauto.
Qed.
Print Assumptions C22_zero_rate_of_discount_factor.

Theorem C22_survival_prob_of_intensity : forall {D P} (DS : DateSys R D P) (tm : D -> R) (DC : DayCounts R D),
  DateLaws DS tm -> forall (c : rcurve R D P) tau, additive (rc_yf c) tau ->
  forall fuel s t r, d_eqb s t = false -> get_flat_intensity fuel c s t = Ok r ->
  forall fuel', (fuel < fuel')%nat -> get_survival_prob fuel' c s t = Ok (exp (- (r * tau s t))).
Proof.
  intros D P DS tm DC L c tau A fuel s t r NE H fuel' F. unfold get_flat_intensity, get_survival_prob, credit_only in *.
  destruct (is_credit (rc_cls c)); [|discriminate]. eapply factor_of_rate; eauto.
Qed.
Print Assumptions C22_survival_prob_of_intensity.

Theorem C22_intensity_of_survival_prob : forall {D P} (DS : DateSys R D P) (tm : D -> R) (DC : DayCounts R D),
  DateLaws DS tm -> forall (c : rcurve R D P) tau, additive (rc_yf c) tau ->
  forall fuel s t p, d_eqb s t = false -> get_survival_prob fuel c s t = Ok p -> 0 < p ->
  forall fuel', (fuel < fuel')%nat -> get_flat_intensity fuel' c s t = Ok (- ln p / tau s t).
Proof.
  intros D P DS tm DC L c tau A fuel s t p NE H Hp fuel' F. unfold get_flat_intensity, get_survival_prob, credit_only in *.
  destruct (is_credit (rc_cls c)); [|discriminate]. eapply rate_of_factor; eauto.
Qed.
Print Assumptions C22_intensity_of_survival_prob.

Example C22_example : exists c : rcurve R R (fperiod R),
  rc_new (DS:=FloatDates) CZeroRate [1; 2] [1 / 10; 2 / 10] None (Some 0) DcDefault None = Ok c /\
  get_zero_rate (DS:=FloatDates) 1 c 1 2 = Ok ((2 / 10 * (2 - 0) - 1 / 10 * (1 - 0)) / (2 - 1)) /\
  get_discount_factor (DS:=FloatDates) 2 c 1 2 =
    Ok (exp (- ((2 / 10 * (2 - 0) - 1 / 10 * (1 - 0)) / (2 - 1) * (2 - 1)))).
Proof.
  pose proof (float_additive (DC:=no_registry)) as A.
  destruct (rc_new_linear (L:=float_laws) DcDefault _ A CZeroRate [1; 2] [1 / 10; 2 / 10] (Some 0) 0 None) as [c [E [B [V V']]]]; auto.
  { reflexivity. } { repeat constructor; simpl; intuition lra. } { discriminate. }
  exists c. split; auto. destruct B as [B1 [_ [B3 [_ [_ [_ [_ [_ [B9 B10]]]]]]]]].
  assert (NE : d_eqb (DateSys:=FloatDates) 1 2 = false) by (cbn; apply Reqb_false; lra).
  assert (Z : get_zero_rate (DS:=FloatDates) 1 c 1 2 = Ok ((2 / 10 * (2 - 0) - 1 / 10 * (1 - 0)) / (2 - 1))).
  { unfold get_zero_rate, interest_only. rewrite B1. cbn [is_interest].
    apply (flat_rate (L:=float_laws) c 0 _ B3 B10); auto; try (left; auto); apply V; simpl; auto. }
  split; auto. apply (C22_discount_factor_of_zero_rate FloatDates (fun d => d) no_registry float_laws c _ B10 1); auto.
Qed.

