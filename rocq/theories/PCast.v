(** Properties C27, C28: casting rate curves (dcf/curves/curve.py:693-746,
    interestratecurve.py:294-309, creditcurve.py:41-53, 141-162). *)
From Coq Require Import Reals Lra Lia List Bool ZArith String.
From Verif Require Import Num Py Spec SInterpolation SCurve SDates SRateCurve SCast LBase LCompounding MCompounding MInterpolation MDates
  MCurve MRateCurve LDates LFuel LCurve LDateCurve LRateCurve LRateCurve2 LRateCurve3 LRateCurve4 LCredit LCivil LCast.
Import ListNotations.
Open Scope R_scope.

#[local] Instance no_registry {D} : DayCounts R D := [].


(** * The families of curves *)
(** which classes the theorems mean by interest rate, credit, volatility, probability and
    default probability curves: the subclasses of the classes of that name *)
Theorem C27_classes : forall k,
  (is_interest k = true <-> In k [CDiscountFactor; CZeroRate; CShortRate; CCashRate]) /\
  (is_credit k = true <-> In k [CSurvival; CDefault; CFlatIntensity; CHazard; CMargSurvival; CMargDefault]) /\
  (is_vol k = true <-> In k [CInstVol; CTermVol]) /\
  (is_probability k = true <-> In k [CSurvival; CDefault; CMargSurvival; CMargDefault]) /\
  (is_default k = true <-> In k [CDefault; CMargDefault]).
Proof. intros k. destruct k; cbn; intuition discriminate. Qed.
Print Assumptions C27_classes.

(** * C27 *)
(** DiscountFactorCurve(src): the same discount factors on the whole grid of src, for
    any interest rate curve src *)
Theorem C27_to_discount_factor : forall {D P} (DS : DateSys R D P) (tm : D -> R) (DC : DayCounts R D),
  DateLaws DS tm -> forall (src : rcurve R D P) o tau fuel flr, castable src o tau -> solid_origin src o ->
  is_interest (rc_cls src) = true -> steps (p_str (DateSys:=DS) Tday) ->
  (forall x, looked_up src o (p_str Tday) x -> exists y, get_discount_factor1 fuel src x = Ok y /\ 0 < y) ->
  exists c, rc_cast fuel flr CDiscountFactor src None None DcDefault None = Ok c /\
    rc_cls c = CDiscountFactor /\ same_time c src /\
    forall x n, In x (rc_domain src) -> get_discount_factor1 (S n) c x = get_discount_factor1 fuel src x.
Proof.
  intros D P DS tm DC L src o tau fuel flr C SO I S1 HV.
  assert (G : forall x, get_discount_factor1 fuel src x = factor fuel src o x).
  { intro x. unfold get_discount_factor1, from_origin, get_discount_factor, interest_only. now rewrite (ca_origin _ _ _ C), I. }
  destruct (extended (L:=L) src o tau C CDiscountFactor Tday fuel flr) as [c [E [K [T [C' [_ [_ [_ [_ [_ F]]]]]]]]]]; auto.
  { unfold prob_cls. auto. }
  { intros x HX. rewrite <- G. auto. }
  exists c. repeat (split; auto). intros x n Ix. rewrite G, <- (F x n Ix).
  unfold get_discount_factor1, from_origin, get_discount_factor, interest_only. rewrite (ca_origin _ _ _ C'), K. reflexivity.
Qed.
Print Assumptions C27_to_discount_factor.

(** SurvivalProbabilityCurve(src) and DefaultProbabilityCurve(src) for any credit curve *)
Theorem C27_to_survival_prob : forall {D P} (DS : DateSys R D P) (tm : D -> R) (DC : DayCounts R D),
  DateLaws DS tm -> forall (src : rcurve R D P) o tau k fuel flr, castable src o tau -> solid_origin src o ->
  k = CSurvival \/ k = CDefault ->
  is_credit (rc_cls src) = true -> steps (p_str (DateSys:=DS) Tday) -> steps (p_str (DateSys:=DS) Tyear) ->
  (forall x, looked_up src o (p_str Tyear) x -> exists y, get_survival_prob1 fuel src x = Ok y /\ 0 < y) ->
  exists c, rc_cast fuel flr k src None None DcDefault None = Ok c /\
    rc_cls c = k /\ same_time c src /\
    forall x n, In x (rc_domain src) -> get_survival_prob1 (S n) c x = get_survival_prob1 fuel src x.
Proof.
  intros D P DS tm DC L src o tau k fuel flr C SO HK I S1 S2 HV.
  assert (G : forall x, get_survival_prob1 fuel src x = factor fuel src o x).
  { intro x. unfold get_survival_prob1, from_origin, get_survival_prob, credit_only. now rewrite (ca_origin _ _ _ C), I. }
  destruct (extended (L:=L) src o tau C k Tyear fuel flr) as [c [E [K [T [C' [_ [_ [_ [_ [_ F]]]]]]]]]]; auto.
  { unfold prob_cls. destruct HK; auto. } { destruct HK as [-> | ->]; reflexivity. }
  { intro x. destruct HK as [-> | ->]; exact (G x). }
  { intros x HX. rewrite <- G. auto. }
  exists c. repeat (split; auto). intros x n Ix. rewrite G, <- (F x n Ix).
  unfold get_survival_prob1, from_origin, get_survival_prob, credit_only. rewrite (ca_origin _ _ _ C'), K.
  destruct HK as [-> | ->]; reflexivity.
Qed.
Print Assumptions C27_to_survival_prob.

(** ZeroRateCurve(src): the same zero rates on the grid and the same discount factors
    between the origin and all other grid dates *)
Theorem C27_to_zero_rate : forall {D P} (DS : DateSys R D P) (tm : D -> R) (DC : DayCounts R D),
  DateLaws DS tm -> forall (src : rcurve R D P) o tau fuel flr, castable src o tau ->
  is_interest (rc_cls src) = true -> NoDup (map tm (rc_domain src)) ->
  (forall x, In x (rc_domain src) -> exists r, get_zero_rate1 fuel src x = Ok r) ->
  exists c, rc_cast fuel flr CZeroRate src None None DcDefault None = Ok c /\
    rc_cls c = CZeroRate /\ same_time c src /\ rc_domain c = rc_domain src /\
    forall x, In x (rc_domain src) -> rc_call c x = get_zero_rate1 fuel src x /\
      forall n m, d_eqb o x = false -> (fuel < n)%nat -> (1 < m)%nat ->
        get_discount_factor1 m c x = get_discount_factor1 n src x.
Proof.
  intros D P DS tm DC L src o tau fuel flr C I ND HV.
  assert (G : forall x, get_zero_rate1 fuel src x = rate fuel src o x).
  { intro x. unfold get_zero_rate1, from_origin, get_zero_rate, interest_only. now rewrite (ca_origin _ _ _ C), I. }
  destruct (flat_on (L:=L) src o tau C CZeroRate fuel flr (rc_domain src)) as [c [E [K [T [C' [_ [D' [_ [RV F]]]]]]]]]; auto.
  { unfold flat_cls. auto. } { exact (ca_domain _ _ _ C). } { exact (ca_origin _ _ _ C). }
  { intros x HX. rewrite <- G. auto. }
  exists c. repeat (split; auto); rewrite ?G.
  - symmetry. auto.
  - intros n m NX F1 F2. unfold get_discount_factor1, from_origin, get_discount_factor, interest_only.
    rewrite (ca_origin _ _ _ C'), (ca_origin _ _ _ C), K, I. cbn [is_interest]. auto.
Qed.
Print Assumptions C27_to_zero_rate.

(** FlatIntensityCurve(src); the grid is extended by one year and sorted, hence without
    an explicit origin the first date of the domain has to be its earliest *)
Theorem C27_to_flat_intensity : forall {D P} (DS : DateSys R D P) (tm : D -> R) (DC : DayCounts R D),
  DateLaws DS tm -> forall (src : rcurve R D P) o tau fuel flr, castable src o tau ->
  (dc_origin0 (rc_dc src) = Some o \/ forall x, In x (rc_domain src) -> d_leb o x = true) ->
  is_credit (rc_cls src) = true -> NoDup (map tm (rc_domain src)) -> steps (p_str (DateSys:=DS) Tyear) ->
  (forall x, looked_up src o (p_str Tyear) x -> exists r, get_flat_intensity1 fuel src x = Ok r) ->
  exists c, rc_cast fuel flr CFlatIntensity src None None DcDefault None = Ok c /\
    rc_cls c = CFlatIntensity /\ same_time c src /\
    forall x, In x (rc_domain src) -> rc_call c x = get_flat_intensity1 fuel src x /\
      forall n m, d_eqb o x = false -> (fuel < n)%nat -> (1 < m)%nat ->
        get_survival_prob1 m c x = get_survival_prob1 n src x.
Proof.
  intros D P DS tm DC L src o tau fuel flr C HO I ND S1 HV.
  assert (G : forall x, get_flat_intensity1 fuel src x = rate fuel src o x).
  { intro x. unfold get_flat_intensity1, from_origin, get_flat_intensity, credit_only. now rewrite (ca_origin _ _ _ C), I. }
  destruct (d_max_ok (L:=L) (rc_domain src) (ca_domain _ _ _ C)) as [hi [HM [Ih Hh]]].
  destruct (S1 hi) as [hi' [H2 [LT _]]]. apply ltb_inv in LT.
  set (l := rc_domain src ++ [hi']).
  assert (NDl : NoDup (map tm l)).
  { unfold l. rewrite map_app. apply (Permutation.Permutation_NoDup (l:=tm hi' :: map tm (rc_domain src))).
    - apply Permutation.Permutation_cons_append.
    - constructor; auto. intro Q. apply in_map_iff in Q. destruct Q as [z [Ez Iz]]. pose proof (Hh z Iz). lra. }
  assert (Il : forall x, In x (rc_domain src) -> In x (date_set l)).
  { intros x Ix. destruct (date_set_in (L:=L) l x) as [y [Iy Ey]]; [apply in_or_app; auto|].
    apply eqb_inv in Ey. assert (x = y) as ->; auto.
    apply (unique_date (tm:=tm) l); auto; [apply in_or_app; auto|]. now apply date_set_sub. }
  assert (OR : dom_origin (dc_origin0 (rc_dc src)) (date_set l) = Some o).
  { pose proof (ca_origin _ _ _ C) as O. unfold rc_origin, dc_origin, dom_origin in *.
    destruct (dc_origin0 (rc_dc src)) as [o'|]; auto. destruct HO as [HO|HO]; [discriminate|].
    change (dc_domain (rc_dc src)) with (rc_domain src) in O.
    assert (In o (rc_domain src)) as Io by (destruct (rc_domain src); inversion O; simpl; auto).
    apply (date_set_head (L:=L)); auto; [apply in_or_app; auto|].
    intros x Ix. apply in_app_or in Ix. destruct Ix as [Ix|[<-|[]]]; [apply leb_inv; auto|].
    pose proof (Hh o Io). lra. }
  destruct (flat_on (L:=L) src o tau C CFlatIntensity fuel flr (date_set l)) as [c [E [K [T [C' [_ [D' [_ [RV F]]]]]]]]]; auto.
  { unfold flat_cls. auto. } { apply (date_set_nodup (L:=L)). }
  { apply (date_set_ne (L:=L)). intro E'. apply app_eq_nil in E'. destruct E'; discriminate. }
  { intros x HX. apply date_set_sub in HX. rewrite <- G. apply HV. apply in_app_or in HX. unfold looked_up.
    destruct HX as [HX|[<-|[]]]; auto. right; right. eauto. }
  exists c. split; [|split; [auto|split; [auto|]]].
  - unfold rc_cast. rewrite HM. cbn [bind]. rewrite H2. cbn [bind]. exact E.
  - intros x Ix. rewrite G. split; [symmetry; auto|].
    intros n m NX F1 F2. unfold get_survival_prob1, from_origin, get_survival_prob, credit_only.
    rewrite (ca_origin _ _ _ C'), (ca_origin _ _ _ C), K, I. cbn [is_credit is_interest is_vol negb andb]. auto.
Qed.
Print Assumptions C27_to_flat_intensity.

(** zero rates to discount factors and back: rates and discount factors of all grid
    dates but the origin are as before *)
Theorem C27_round_trip : forall {D P} (DS : DateSys R D P) (tm : D -> R) (DC : DayCounts R D),
  DateLaws DS tm -> forall (z : rcurve R D P) o tau fuel flr, castable z o tau -> solid_origin z o ->
  rc_cls z = CZeroRate -> steps (p_str (DateSys:=DS) Tday) -> (1 < fuel)%nat ->
  (forall x, looked_up z o (p_str Tday) x -> exists v, has_value z x v) ->
  exists c z', rc_cast fuel flr CDiscountFactor z None None DcDefault None = Ok c /\
    rc_cast fuel flr CZeroRate c None None DcDefault None = Ok z' /\
    rc_cls z' = CZeroRate /\ same_time c z /\ same_time z' z /\
    forall x v n, In x (rc_domain z) -> d_eqb o x = false -> has_value z x v -> (fuel < n)%nat ->
      has_value z' x v /\
      get_discount_factor1 n z x = Ok (exp (- (v * tau o x))) /\
      get_discount_factor1 n c x = Ok (exp (- (v * tau o x))) /\
      get_discount_factor1 n z' x = Ok (exp (- (v * tau o x))).
Proof.
  intros D P DS tm DC L z o tau fuel flr C SO K S1 F HV.
  assert (AO : at_origin z o = true) by (unfold at_origin; rewrite (ca_origin _ _ _ C); apply law_is_refl).
  assert (FZ : forall x v n, (1 < n)%nat -> d_eqb o x = false -> has_value z x v -> factor n z o x = Ok (exp (- (v * tau o x)))).
  { intros x v n Fn NX Hv. apply (factor_of_rate z tau (ca_time _ _ _ C) 1 n o x v NX); auto.
    cbn [rate]. cbv zeta. assert (BO : both_origin z o x = false) by (unfold both_origin; now rewrite NX).
    rewrite K, BO, AO. exact Hv. }
  assert (GZ : forall n x, get_discount_factor1 n z x = factor n z o x).
  { intros n x. unfold get_discount_factor1, from_origin, get_discount_factor, interest_only. now rewrite (ca_origin _ _ _ C), K. }
  destruct (extended (L:=L) z o tau C CDiscountFactor Tday fuel flr)
    as [c [E [Kc [Tc [Cc [Oc [Nc [Lc [Ic [Vc Fc]]]]]]]]]]; auto.
  { unfold prob_cls. auto. } { intro x. apply GZ. }
  { intros x HX. destruct (d_eqb o x) eqn:NX.
    - exists 1. split; [|lra]. destruct fuel; [lia|]. cbn [factor]. rewrite K, NX. reflexivity.
    - destruct (HV x HX) as [v Hv]. exists (exp (- (v * tau o x))). split; auto using exp_pos. }
  assert (PK : prob_cls (rc_cls c)) by (rewrite Kc; unfold prob_cls; auto).
  assert (GC : forall n x, get_discount_factor1 n c x = factor n c o x).
  { intros n x. unfold get_discount_factor1, from_origin, get_discount_factor, interest_only. now rewrite (ca_origin _ _ _ Cc), Kc. }
  destruct (flat_on (L:=L) c o tau Cc CZeroRate fuel flr (rc_domain c)) as [z' [E' [Kz [Tz [Cz [_ [Dz [_ [RV Fz]]]]]]]]]; auto.
  { unfold flat_cls. auto. } { exact (ca_domain _ _ _ Cc). } { exact (ca_origin _ _ _ Cc). }
  { intro x. cbn [storage_value]. unfold get_zero_rate1, from_origin, get_zero_rate, interest_only. now rewrite (ca_origin _ _ _ Cc), Kc. }
  { intros x _. destruct fuel as [|[|n]]; try lia. apply (origin_rate (L:=L) c tau (ca_time _ _ _ Cc)); auto. exact (ca_origin _ _ _ Cc). }
  exists c, z'. split; auto. split; [exact E'|]. split; auto. split; auto. split.
  { destruct Tc as [T1 T2], Tz as [T3 T4]. split; [congruence|]. intros a b. now rewrite T4. }
  intros x v n Ix NX Hv Fn. rewrite GZ, GC.
  pose proof (tau_neq (ca_time _ _ _ C) o x NX) as NT.
  assert (FX : forall k, factor (S k) c o x = Ok (exp (- (v * tau o x)))).
  { intro k. rewrite (Fc x k Ix). apply FZ; auto. }
  destruct (Ic x Ix) as [y [Iy Ey]].
  assert (NY : d_eqb o y = false) by (dbool; apply eqb_f; congruence).
  split; [|split; [apply FZ; auto; lia|split; [destruct n; [lia|]; apply FX|]]].
  - unfold has_value. rewrite (ca_date _ _ _ Cz _ _ Ey), <- (RV y Iy),
      <- (rate_end (L:=L) c tau (ca_time _ _ _ Cc) (ca_date _ _ _ Cc) x y Ey fuel o).
    destruct fuel as [|[|k]]; try lia.
    rewrite (base_rate c tau (ca_time _ _ _ Cc) (S k) o x _ (or_introl PK) NX (FX k) (exp_pos _)).
    rewrite ln_exp. f_equal. field. exact NT.
  - assert (GZ' : get_discount_factor1 n z' x = factor n z' o x).
    { unfold get_discount_factor1, from_origin, get_discount_factor, interest_only. now rewrite (ca_origin _ _ _ Cz), Kz. }
    rewrite GZ', (factor_end (L:=L) z' tau (ca_time _ _ _ Cz) (ca_date _ _ _ Cz) x y Ey n o).
    rewrite (Fz y n n Iy NY) by lia.
    rewrite <- (factor_end (L:=L) c tau (ca_time _ _ _ Cc) (ca_date _ _ _ Cc) x y Ey n o).
    destruct n; [lia|]. apply FX.
Qed.
Print Assumptions C27_round_trip.

Example C27_example : exists z : rcurve R bdate bperiod,
  rc_new (DS:=DayDates) CZeroRate [BD 365 1; BD 730 2] [1 / 10; 2 / 10] None (Some (BD 0 3)) DcDefault None = Ok z /\
  castable (DS:=DayDates) z (BD 0 3) (fun a b => IZR (bd_day b) / (1461 / 4) - IZR (bd_day a) / (1461 / 4)) /\
  solid_origin (DS:=DayDates) z (BD 0 3) /\ rc_cls z = CZeroRate /\
  (forall t, steps (DS:=DayDates (T:=R)) (p_str t)) /\
  (forall x, exists v, has_value (DS:=DayDates) z x v).
Proof.
  destruct (rc_new_linear (L:=day_laws) DcDefault _ (default_additive (L:=day_laws)) CZeroRate [BD 365 1; BD 730 2] [1 / 10; 2 / 10] (Some (BD 0 3)) (BD 0 3) None)
    as [z [E [B [V V']]]]; auto.
  { reflexivity. } { cbn. repeat constructor; simpl; intuition lra. } { discriminate. }
  destruct B as [B1 [B2 [B3 [B4 [B5 [B6 [B7 [B8 [B9 B10]]]]]]]]].
  assert (VA : forall x, exists v, has_value (DS:=DayDates) z x v).
  { intro x. destruct (V' x) as [v [Ev _]]. exists v. exact Ev. }
  exists z. split; auto. split; [constructor; auto|].
  { rewrite B2. discriminate. } { intros n f. rewrite B6. discriminate. }
  split; [left; auto|]. split; auto. split; [|exact VA]. apply tenor_steps.
Qed.

(** * C28 *)
(** a curve cast from another one without further arguments measures time by the same
    day count, if that is the default one or one known by name ... *)
Theorem C28_day_count : forall {D P} (DS : DateSys R D P) (DC : DayCounts R D) (src c : rcurve R D P) fuel flr k i orig tenor,
  rc_cast fuel flr k src i orig DcDefault tenor = Ok c -> (forall n f, dc_count (rc_dc src) <> DcFun n f) ->
  forall a b, rc_yf c a b = rc_yf src a b.
Proof.
  intros D P DS DC src c fuel flr k i orig tenor H N a b.
  destruct (cast_inv _ _ _ _ _ _ _ _ _ H) as [ds [o' [t' [H' _]]]]. destruct (cast_on_inv _ _ _ _ _ _ _ _ _ _ H') as [_ [E _]].
  unfold rc_yf, dc_yf. rewrite E. cbn [dc_or]. destruct (dc_count (rc_dc src)) as [|n f|n]; try reflexivity.
  exfalso. exact (N n f eq_refl).
Qed.
Print Assumptions C28_day_count.

(** ... and by the day count given, if there is one *)
Theorem C28_day_count_given : forall {D P} (DS : DateSys R D P) (DC : DayCounts R D) (src c : rcurve R D P) fuel flr k i orig s tenor,
  rc_cast fuel flr k src i orig s tenor = Ok c -> s <> DcDefault -> s <> DcName "" ->
  forall a b, rc_yf c a b = dc_apply s a b.
Proof.
  intros D P DS DC src c fuel flr k i orig s tenor H N1 N2 a b.
  destruct (cast_inv _ _ _ _ _ _ _ _ _ H) as [ds [o' [t' [H' _]]]]. destruct (cast_on_inv _ _ _ _ _ _ _ _ _ _ H') as [_ [E _]].
  unfold rc_yf, dc_yf. rewrite E. destruct s as [|n f|n]; try congruence; try reflexivity.
  cbn [dc_or]. destruct (String.eqb_spec n ""); congruence.
Qed.
Print Assumptions C28_day_count_given.

(** REFUTED for functions: a curve with a custom day count function cannot be cast *)
Theorem C28_day_count_refuted : forall {D P} (DS : DateSys R D P) (tm : D -> R) (DC : DayCounts R D), DateLaws DS tm ->
  forall (src : rcurve R D P) n f, dc_count (rc_dc src) = DcFun n f -> assoc String.eqb n dc_registry = None ->
  rc_domain src <> [] ->
  forall fuel flr k i orig tenor c, rc_cast fuel flr k src i orig DcDefault tenor <> Ok c.
Proof.
  intros D P DS tm DC L src n f E N NE fuel flr k i orig tenor c H.
  destruct (cast_inv _ _ _ _ _ _ _ _ _ H) as [ds [o' [t' [H' [NE' _]]]]].
  destruct (cast_on_inv _ _ _ _ _ _ _ _ _ _ H') as [_ [E' [_ [ts Ets]]]].
  specialize (NE' NE (date_set_ne (L:=L))). rewrite E in E'. cbn [dc_or dc_kwarg] in E'.
  destruct ds as [|x ds]; [congruence|]. cbn [mapM] in Ets. unfold dc_time in Ets.
  destruct (dc_origin (rc_dc c)); [|discriminate]. unfold dc_yf, dc_apply in Ets. rewrite E', N in Ets. discriminate.
Qed.
Print Assumptions C28_day_count_refuted.

(** the origin is kept if it was given to the curve cast; an implicit one (the first date
    of the domain) is kept unless it is falsy or the grid gets sorted *)
Theorem C28_origin : forall {D P} (DS : DateSys R D P) (tm : D -> R) (DC : DayCounts R D), DateLaws DS tm ->
  forall (src c : rcurve R D P) o fuel flr k i s tenor,
  rc_cast fuel flr k src i None s tenor = Ok c -> rc_origin src = Some o ->
  dc_origin0 (rc_dc src) = Some o \/ k = CZeroRate \/ k = CShortRate \/
  (d_truthy o = true /\ k <> CFlatIntensity /\ k <> CHazard) \/
  (NoDup (map tm (rc_domain src)) /\ (forall x, In x (rc_domain src) -> d_leb o x = true) /\ steps (p_str (DateSys:=DS) Tyear)
   /\ (k = CFlatIntensity \/ k = CHazard)) ->
  rc_origin c = Some o.
Proof.
  intros D P DS tm DC L src c o fuel flr k i s tenor H O HC.
  destruct (cast_inv _ _ _ _ _ _ _ _ _ H) as [ds [o' [t' [H' [_ G]]]]].
  destruct (cast_on_inv _ _ _ _ _ _ _ _ _ _ H') as [E1 [_ [E2 _]]].
  unfold rc_origin, dc_origin, rc_domain in *. rewrite E1, E2. unfold dom_origin in O.
  destruct (dc_origin0 (rc_dc src)) as [p|] eqn:E0.
  - inversion O; subst p. destruct G as [[_ [_ ->]]|[[_ [-> _]]|[_ ->]]]; cbn [origin_or dom_origin]; auto. destruct (d_truthy o); reflexivity.
  - destruct HC as [HC|HC]; [discriminate|].
    destruct G as [[_ [-> ->]]|[[K [-> [hi [hi' [Ih [Eh ->]]]]]]|[[K1 [K2 [K3 K4]]] ->]]]; cbn [origin_or dom_origin]; auto.
    + destruct HC as [HC|[HC|[[_ [HC HC']]|[ND [HM [SY _]]]]]]; try (destruct K; congruence).
      destruct (SY hi) as [h [Eh' [LT _]]]. rewrite Eh in Eh'. inversion Eh'; subst h. apply ltb_inv in LT.
      assert (Io : In o (dc_domain (rc_dc src))) by (destruct (dc_domain (rc_dc src)); inversion O; simpl; auto).
      destruct (d_max_ok (L:=L) (dc_domain (rc_dc src))) as [hi2 [Eh2 [Ih2 Hm]]]; [intro Q; rewrite Q in Io; destruct Io|].
      rewrite Ih in Eh2. inversion Eh2; subst hi2.
      apply (date_set_head (L:=L)).
      * apply in_or_app; auto.
      * rewrite map_app. apply (Permutation.Permutation_NoDup (l:=tm hi' :: map tm (dc_domain (rc_dc src)))).
        { apply Permutation.Permutation_cons_append. }
        constructor; auto. intro Q. apply in_map_iff in Q. destruct Q as [z [Ez Iz]]. pose proof (Hm z Iz). lra.
      * intros x Ix. apply in_app_or in Ix. destruct Ix as [Ix|[<-|[]]]; [apply leb_inv; auto|]. pose proof (Hm o Io). lra.
    + destruct HC as [HC|[HC|[[HC _]|[_ [_ [_ HC]]]]]]; try (destruct HC; congruence); try congruence.
      rewrite O. cbn [origin_or]. now rewrite HC.
Qed.
Print Assumptions C28_origin.

Theorem C28_origin_given : forall {D P} (DS : DateSys R D P) (DC : DayCounts R D) (src c : rcurve R D P) o fuel flr k i s tenor,
  rc_cast fuel flr k src i (Some o) s tenor = Ok c -> d_truthy o = true -> rc_origin c = Some o.
Proof.
  intros D P DS DC src c o fuel flr k i s tenor H HT.
  destruct (cast_inv _ _ _ _ _ _ _ _ _ H) as [ds [o' [t' [H' [_ G]]]]].
  destruct (cast_on_inv _ _ _ _ _ _ _ _ _ _ H') as [E1 _].
  assert (o' = Some o) as -> by (destruct G as [[_ [_ ->]]|[[_ [-> _]]|[_ ->]]]; reflexivity).
  unfold rc_origin, dc_origin. rewrite E1. cbn [origin_or]. now rewrite HT.
Qed.
Print Assumptions C28_origin_given.
(** every calendar date is kept as origin *)
Theorem C28_origin_calendar : forall (DC : DayCounts R bdate) (src c : rcurve R bdate bperiod) o fuel flr k i s tenor,
  rc_cast (DS := DayDates) fuel flr k src i (Some o) s tenor = Ok c -> rc_origin c = Some o.
Proof. intros DC src c o fuel flr k i s tenor H. now apply (C28_origin_given DayDates DC src c o fuel flr k i s tenor H). Qed.
Print Assumptions C28_origin_calendar.

(** REFUTED (1): the origin 0.0 given in the call is ignored *)
Theorem C28_origin_given_refuted : exists src c : rcurve R R (fperiod R),
  rc_cast (DS:=FloatDates) 2 None CZeroRate src None (Some 0) DcDefault None = Ok c /\
  rc_origin c = Some 1 /\ rc_origin c <> Some 0.
Proof.
  pose proof (float_additive (DC:=no_registry)) as A.
  destruct (rc_new_linear (L:=float_laws) DcDefault _ A CZeroRate [2; 3] [1 / 10; 2 / 10] (Some 1) 1 None) as [src [E [B [V V']]]]; auto.
  { reflexivity. } { repeat constructor; simpl; intuition lra. } { discriminate. }
  destruct B as [B1 [B2 [B3 [B4 [B5 [B6 [B7 [B8 [B9 B10]]]]]]]]].
  assert (AO : at_origin (DS:=FloatDates) src 1 = true) by (unfold at_origin; rewrite B3; exact (law_is_refl (DateLaws:=float_laws) 1)).
  destruct (flat_cast_on (L:=float_laws) DcDefault _ A src 1) with (k:=CZeroRate) (fuel:=2%nat) (flr:=@None R) (ds:=[2;3])
    (sv:=fun x => value_of (rc_call src x)) as [c [Ec [Bc _]]].
  { now rewrite B6. } { intros x _. destruct (V' x) as [v [Ev _]]. eauto. } { unfold flat_cls. auto. }
  { repeat constructor; simpl; intuition lra. } { discriminate. } { now rewrite B5. }
  { intros x Ix. cbn [storage_value]. unfold get_zero_rate1, from_origin, get_zero_rate, interest_only. rewrite B3, B1. cbn [is_interest].
    assert (NX : d_eqb (DateSys:=FloatDates) 1 x = false) by (apply Reqb_false; destruct Ix as [<-|[<-|[]]]; lra).
    assert (BO : both_origin (DS:=FloatDates) src 1 x = false) by (unfold both_origin; now rewrite NX).
    unfold rate. rewrite B1, BO, AO. apply value_of_ok. destruct (V' x) as [v [Ev _]]. eauto. }
  exists src, c. destruct Bc as [_ [_ [C3 _]]]. split.
  - rewrite <- Ec. unfold rc_cast. rewrite B2. unfold rc_cast_on.
    replace (origin_or (DS:=FloatDates) (Some 0) (dc_origin0 (rc_dc src))) with (dc_origin0 (rc_dc src)); [reflexivity|].
    cbn [origin_or]. replace (d_truthy (DateSys:=FloatDates) 0) with false; [reflexivity|].
    symmetry. change (negb (Reqb 0 0) = false). rewrite Reqb_refl. reflexivity.
  - split; auto. rewrite C3. intro Q. inversion Q. lra.
Qed.
Print Assumptions C28_origin_given_refuted.

(** REFUTED (2): casting to FlatIntensityCurve or HazardRateCurve moves the implicit origin
    of a curve whose domain does not start with its earliest date *)
Theorem C28_origin_refuted : forall {D P} (DS : DateSys R D P) (tm : D -> R) (DC : DayCounts R D), DateLaws DS tm ->
  forall (src c : rcurve R D P) o d fuel flr k i s tenor,
  k = CFlatIntensity \/ k = CHazard ->
  rc_cast fuel flr k src i None s tenor = Ok c -> rc_origin src = Some o -> dc_origin0 (rc_dc src) = None ->
  In d (rc_domain src) -> d_ltb d o = true ->
  exists o', rc_origin c = Some o' /\ d_ltb o' o = true /\ forall x, In x (rc_domain src) -> d_leb o' x = true.
Proof.
  intros D P DS tm DC L src c o d fuel flr k i s tenor K H O O0 Id Ld.
  destruct (cast_inv _ _ _ _ _ _ _ _ _ H) as [ds [o1 [t' [H' [_ G]]]]].
  destruct (cast_on_inv _ _ _ _ _ _ _ _ _ _ H') as [E1 [_ [E2 _]]].
  destruct G as [[K' _]|[[_ [-> [hi [hi' [_ [_ ->]]]]]]|[[_ [_ [K3 K4]]] _]]]; try (destruct K as [-> | ->]; destruct K'; congruence);
    try (destruct K; congruence).
  unfold rc_origin at 1, dc_origin. rewrite E1, O0. cbn [origin_or dom_origin]. fold (rc_domain c). rewrite E2.
  assert (Il : In d (rc_domain src ++ [hi'])) by (apply in_or_app; auto).
  pose proof (date_set_sorted (L:=L) (rc_domain src ++ [hi'])) as Sd.
  assert (Sp : forall x, In x (rc_domain src) -> exists y, In y (date_set (rc_domain src ++ [hi'])) /\ d_eqb x y = true).
  { intros x Ix. apply (date_set_in (L:=L)). apply in_or_app; auto. }
  destruct (date_set (rc_domain src ++ [hi'])) as [|h t]; [destruct (Sp d Id) as [y [[] _]]|].
  exists h. split; [reflexivity|]. inversion Sd as [|? ? _ F]; subst. rewrite Forall_forall in F.
  assert (M : forall x, In x (rc_domain src) -> d_leb h x = true).
  { intros x Ix. destruct (Sp x Ix) as [y [Iy Ey]]. apply eqb_inv in Ey. apply leb_t. rewrite Ey.
    destruct Iy as [->|Iy]; [lra|auto]. }
  split; auto. pose proof (M d Id) as Q. apply leb_inv in Q. apply ltb_inv in Ld. apply ltb_t. lra.
Qed.
Print Assumptions C28_origin_refuted.

Example C28_origin_refuted_example : exists src c : rcurve R bdate bperiod,
  rc_new (DS:=DayDates) CFlatIntensity [BD 730 1; BD 365 2] [1 / 10; 2 / 10] None None DcDefault None = Ok src /\
  rc_origin src = Some (BD 730 1) /\
  rc_cast (DS:=DayDates) 2 None CFlatIntensity src None None DcDefault None = Ok c /\ rc_origin c = Some (BD 365 2).
Proof.
  destruct (rc_new_linear (L:=day_laws) DcDefault _ (default_additive (L:=day_laws)) CFlatIntensity [BD 730 1; BD 365 2] [1 / 10; 2 / 10] None (BD 730 1) None)
    as [src [E [B [V V']]]]; auto.
  { reflexivity. } { cbn. repeat constructor; simpl; intuition lra. } { discriminate. }
  destruct B as [B1 [B2 [B3 [B4 [B5 [B6 [B7 [B8 [B9 B10]]]]]]]]].
  assert (AO : at_origin (DS:=DayDates) src (BD 730 1) = true) by (unfold at_origin; rewrite B3; reflexivity).
  assert (VA : forall x, rc_call (DS:=DayDates) src x = Ok (value_of (rc_call (DS:=DayDates) src x))).
  { intro x. apply value_of_ok. destruct (V' x) as [v [Ev _]]. eauto. }
  destruct (flat_cast_on (L:=day_laws) DcDefault _ (default_additive (L:=day_laws)) src (BD 365 2)) with (k:=CFlatIntensity) (fuel:=2%nat) (flr:=@None R)
    (ds:=[BD 365 2; BD 730 1; BD 1096 0])
    (sv:=fun x => value_of (rc_call (DS:=DayDates) src x)) as [c [Ec [Bc _]]].
  { now rewrite B6. } { intros x _. rewrite VA. eauto. } { unfold flat_cls. auto. }
  { cbn. repeat constructor; simpl; intuition lra. } { discriminate. } { now rewrite B5. }
  { intros x Ix. cbn [storage_value]. unfold get_flat_intensity1, from_origin, get_flat_intensity, credit_only. rewrite B3, B1.
    cbn [is_credit is_interest is_vol negb andb]. unfold rate. rewrite B1. destruct (both_origin (DS:=DayDates) src (BD 730 1) x) eqn:BO.
    - rewrite B3. rewrite <- VA. apply B9. unfold both_origin in BO. apply andb_true_iff in BO. tauto.
    - rewrite AO. apply VA. }
  exists src, c. destruct Bc as [_ [_ [C3 _]]]. split; auto. split; auto. split; auto.
  rewrite <- Ec. unfold rc_cast. rewrite B2. reflexivity.
Qed.

Example C28_day_count_refuted_example : exists src : rcurve R bdate bperiod,
  rc_new (DS:=DayDates) CZeroRate [BD 365 1; BD 730 2] [1 / 10; 2 / 10] None None (DcFun "act" d_yf) None = Ok src /\
  dc_count (rc_dc src) = DcFun "act" (d_yf (DateSys:=DayDates)) /\
  assoc String.eqb "act"%string (dc_registry (DayCounts:=no_registry (D:=bdate))) = None /\ rc_domain src <> [].
Proof.
  destruct (rc_new_linear (L:=day_laws) (DcFun "act" (d_yf (DateSys:=DayDates))) _ (default_additive (L:=day_laws)) CZeroRate
    [BD 365 1; BD 730 2] [1 / 10; 2 / 10] None (BD 365 1) None) as [src [E [B [V V']]]]; auto.
  { reflexivity. } { cbn. repeat constructor; simpl; intuition lra. } { discriminate. }
  destruct B as [B1 [B2 [B3 [B4 [B5 [B6 _]]]]]].
  exists src. repeat split; auto. rewrite B2. discriminate.
Qed.
