(** Property C123: a short rate curve made of another interest rate curve discounts like that
    curve between the dates of its grid, and so do hazard rate curves (interestratecurve.py:353-381,
    creditcurve.py:41-53, 245-270, curve.py:722-746). *)
From Coq Require Import Reals Lra Lia List Bool ZArith.
From Verif Require Import Num Py Spec SInterpolation SCurve SDates SRateCurve SCast LBase LCompounding MCompounding MInterpolation MDates
  MCurve MRateCurve LDates LFuel LCurve LDateCurve LRateCurve LRateCurve2 LRateCurve3 LRateCurve4 LCredit LCivil LCast LCast2 LCast3
  PRateCurve2 PCast2.
Import ListNotations.
Open Scope R_scope.

#[local] Instance no_registry4 {D} : DayCounts R D := [].

(** any curve whose discount factors multiply, between dates of its grid which are a number
    of days apart *)
Theorem C123_short_rate_cast : forall {D P} (DS : DateSys R D P) (tm : D -> R) (DC : DayCounts R D),
  DateLaws DS tm -> forall (src : rcurve R D P) o tau k fuel flr c (f : D -> R), castable src o tau -> monotone tau ->
  is_interest (rc_cls src) = true -> rc_cls src <> CShortRate -> NoDup (map tm (rc_domain src)) ->
  rc_cast fuel flr CShortRate src None None DcDefault None = Ok c -> (k + 2 <= fuel)%nat ->
  (forall x, In x (rc_domain src) -> 0 < f x) ->
  (forall x y, In x (rc_domain src) -> In y (rc_domain src) -> d_ltb x y = true ->
     get_discount_factor k src x y = Ok (f y / f x)) ->
  forall (ds : nat -> D) n b m, schedule (p_str Tday) ds n -> In (ds 0%nat) (rc_domain src) -> In b (rc_domain src) ->
  d_eqb (ds n) b = true ->
  (forall d, In d (rc_domain src) -> d_leb (ds 0%nat) d = true -> d_leb d b = true -> exists i, (i <= n)%nat /\ d_eqb d (ds i) = true) ->
  (n + 3 <= m)%nat -> get_discount_factor m c (ds 0%nat) b = Ok (f b / f (ds 0%nat)).
Proof.
  intros D P DS tm DC L src o tau k fuel flr c f C M I NS ND H Hk PF HF ds n b m Sc Ia Ib Eb AL Hm.
  assert (NC : rc_cls src <> CHazard) by (intro E; rewrite E in I; discriminate).
  assert (K : rc_cls c = CShortRate).
  { unfold rc_cast in H. cbv zeta in H. unfold rc_cast_on in H. destruct (mapM _ _); [|discriminate]. cbn [bind] in H.
    destruct (mapM _ _); [|discriminate]. cbn [bind] in H. destruct (dc_new _ _ _ _ _ _); [|discriminate]. cbn [bind] in H. now inversion H. }
  unfold get_discount_factor at 1, interest_only. rewrite K. cbn [is_interest].
  apply (cast_kept (L:=L) src o tau C M CShortRate fuel flr (rc_domain src) o None c f k) with (n := n); auto.
  - unfold own_rate. tauto.
  - intro x. cbn [storage_value]. unfold get_short_rate, interest_only. now rewrite I.
  - exact (ca_origin _ _ _ C).
  - intros x y Ix Iy Hxy. specialize (HF x y Ix Iy). unfold get_discount_factor, interest_only in HF. rewrite I in HF.
    apply HF. now apply ltb_t.
  - now apply eqb_inv.
  - intros d Id [H1 H2]. destruct (AL d Id) as [i [Hi Ei]]; try (now apply leb_t). exists i. split; auto. now apply eqb_inv.
Qed.
Print Assumptions C123_short_rate_cast.

(** ... likewise survival probabilities; the grid of a hazard rate curve has one more date *)
Theorem C123_hazard_rate_cast : forall {D P} (DS : DateSys R D P) (tm : D -> R) (DC : DayCounts R D),
  DateLaws DS tm -> forall (src : rcurve R D P) o tau k fuel flr c (f : D -> R), castable src o tau -> monotone tau ->
  is_credit (rc_cls src) = true -> rc_cls src <> CHazard -> NoDup (map tm (rc_domain src)) ->
  steps (p_str (DateSys:=DS) Tyear) ->
  rc_cast fuel flr CHazard src None None DcDefault None = Ok c -> (k + 2 <= fuel)%nat ->
  (forall x, In x (rc_domain src) -> 0 < f x) ->
  (forall x y, In x (rc_domain src) -> In y (rc_domain src) -> d_ltb x y = true ->
     get_survival_prob k src x y = Ok (f y / f x)) ->
  forall (ds : nat -> D) n b m, schedule (p_str Tday) ds n -> In (ds 0%nat) (rc_domain src) -> In b (rc_domain src) ->
  d_eqb (ds n) b = true ->
  (forall d, In d (rc_domain src) -> d_leb (ds 0%nat) d = true -> d_leb d b = true -> exists i, (i <= n)%nat /\ d_eqb d (ds i) = true) ->
  (n + 3 <= m)%nat -> get_survival_prob m c (ds 0%nat) b = Ok (f b / f (ds 0%nat)).
Proof.
  intros D P DS tm DC L src o tau k fuel flr c f C M I NS ND S1 H Hk PF HF ds n b m Sc Ia Ib Eb AL Hm.
  assert (NC : rc_cls src <> CShortRate) by (intro E; rewrite E in I; discriminate).
  destruct (d_max_ok (L:=L) (rc_domain src) (ca_domain _ _ _ C)) as [hi [HM [Ih Hh]]].
  destruct (S1 hi) as [hi' [H2 [LT _]]]. apply ltb_inv in LT.
  unfold rc_cast in H. cbv zeta in H. rewrite HM in H. cbn [bind] in H. rewrite H2 in H. cbn [bind] in H.
  assert (K : rc_cls c = CHazard).
  { unfold rc_cast_on in H. destruct (mapM _ _); [|discriminate]. cbn [bind] in H.
    destruct (mapM _ _); [|discriminate]. cbn [bind] in H. destruct (dc_new _ _ _ _ _ _); [|discriminate]. cbn [bind] in H. now inversion H. }
  assert (SUB : forall x, In x (rc_domain src) -> In x (date_set (rc_domain src ++ [hi']))).
  { intros x Ix. destruct (date_set_in (L:=L) (rc_domain src ++ [hi']) x) as [y [Iy Ey]]; [apply in_or_app; auto|].
    apply eqb_inv in Ey. pose proof (date_set_sub _ _ Iy) as J. apply in_app_or in J. destruct J as [J|[<-|[]]].
    - now rewrite (unique_date (tm:=tm) (rc_domain src) x y ND Ix J Ey).
    - pose proof (Hh x Ix). lra. }
  assert (exists o', dom_origin (dc_origin0 (rc_dc src)) (date_set (rc_domain src ++ [hi'])) = Some o') as [o' HO].
  { unfold dom_origin. destruct (dc_origin0 (rc_dc src)) as [z|]; [eauto|]. specialize (SUB _ Ia).
    destruct (date_set _); [destruct SUB|cbn; eauto]. }
  unfold get_survival_prob at 1, credit_only. rewrite K. cbn [is_credit is_interest is_vol negb andb].
  apply (cast_kept (L:=L) src o tau C M CHazard fuel flr (date_set (rc_domain src ++ [hi'])) o' None c f k) with (n := n); auto.
  - unfold own_rate. tauto.
  - intro x. cbn [storage_value]. unfold get_hazard_rate, credit_only. now rewrite I.
  - apply (date_set_nodup (L:=L)).
  - intros d Id. apply date_set_sub in Id. apply in_app_or in Id. destruct Id as [Id|[<-|[]]]; auto.
    right. intros x Ix. pose proof (Hh x Ix). lra.
  - intros x y Ix Iy Hxy. specialize (HF x y Ix Iy). unfold get_survival_prob, credit_only in HF. rewrite I in HF.
    apply HF. now apply ltb_t.
  - now apply eqb_inv.
  - intros d Id [H3 H4]. destruct (AL d Id) as [i [Hi Ei]]; try (now apply leb_t). exists i. split; auto. now apply eqb_inv.
Qed.
Print Assumptions C123_hazard_rate_cast.

(** business dates: any two dates of the grid *)
Theorem C123_business_dates : forall (DC : DayCounts R bdate) (src : rcurve R bdate bperiod) o tau k fuel flr c (f : bdate -> R),
  castable (DS:=DayDates) src o tau -> monotone (DS:=DayDates) tau -> NoDup (map bd_day (rc_domain src)) -> (k + 2 <= fuel)%nat ->
  (forall x, In x (rc_domain src) -> 0 < f x) ->
  (rc_cast (DS:=DayDates) fuel flr CShortRate src None None DcDefault None = Ok c ->
   is_interest (rc_cls src) = true -> rc_cls src <> CShortRate ->
   (forall x y, In x (rc_domain src) -> In y (rc_domain src) -> (bd_day x < bd_day y)%Z ->
      get_discount_factor (DS:=DayDates) k src x y = Ok (f y / f x)) ->
   forall x y m, In x (rc_domain src) -> In y (rc_domain src) -> (bd_day x <= bd_day y)%Z -> (bd_day y - bd_day x + 3 <= Z.of_nat m)%Z ->
   get_discount_factor (DS:=DayDates) m c x y = Ok (f y / f x)) /\
  (rc_cast (DS:=DayDates) fuel flr CHazard src None None DcDefault None = Ok c ->
   is_credit (rc_cls src) = true -> rc_cls src <> CHazard ->
   (forall x y, In x (rc_domain src) -> In y (rc_domain src) -> (bd_day x < bd_day y)%Z ->
      get_survival_prob (DS:=DayDates) k src x y = Ok (f y / f x)) ->
   forall x y m, In x (rc_domain src) -> In y (rc_domain src) -> (bd_day x <= bd_day y)%Z -> (bd_day y - bd_day x + 3 <= Z.of_nat m)%Z ->
   get_survival_prob (DS:=DayDates) m c x y = Ok (f y / f x)).
Proof.
  intros DC src o tau k fuel flr c f C M ND Hk PF.
  set (tm := fun d => IZR (bd_day d) / (1461 / 4)).
  assert (ND' : NoDup (map tm (rc_domain src))).
  { replace (map tm (rc_domain src)) with (map (fun z => IZR z / (1461 / 4)) (map bd_day (rc_domain src))) by (now rewrite map_map).
    apply FinFun.Injective_map_NoDup; auto. intros a b E. apply eq_IZR. lra. }
  set (ds := fun (x : bdate) k => match k with O => x | S _ => BD (bd_day x + Z.of_nat k) 0 end).
  assert (DD : forall x k, bd_day (ds x k) = (bd_day x + Z.of_nat k)%Z) by (intros x [|j]; simpl; lia).
  assert (Sc : forall x m, schedule (DS:=DayDates (T:=R)) (p_str Tday) (ds x) m).
  { intros x m j _. split.
    - rewrite day_plus, DD. unfold ds. do 2 f_equal. lia.
    - cbn. apply Z.ltb_lt. rewrite !DD. lia. }
  assert (EN : forall x y, (bd_day x <= bd_day y)%Z -> d_eqb (DateSys:=DayDates (T:=R)) (ds x (Z.to_nat (bd_day y - bd_day x))) y = true).
  { intros x y Hxy. cbn. apply Z.eqb_eq. rewrite DD. lia. }
  assert (AL : forall x y d, d_leb (DateSys:=DayDates (T:=R)) x d = true -> d_leb (DateSys:=DayDates (T:=R)) d y = true ->
     exists i, (i <= Z.to_nat (bd_day y - bd_day x))%nat /\ d_eqb (DateSys:=DayDates (T:=R)) d (ds x i) = true).
  { intros x y d H1 H2. cbn in H1, H2. apply Z.leb_le in H1, H2. exists (Z.to_nat (bd_day d - bd_day x)). split; [lia|].
    cbn. apply Z.eqb_eq. rewrite DD. lia. }
  split; intros H I NS HF x y m Ix Iy Hxy Hm; change x with (ds x 0%nat).
  - apply (C123_short_rate_cast DayDates tm DC day_laws src o tau k fuel flr c f C M I NS ND' H Hk PF)
      with (n := Z.to_nat (bd_day y - bd_day x)); auto; try (intros d _; apply (AL x y)); try lia.
    intros a b Ia Ib Hab. apply HF; auto. now apply Z.ltb_lt.
  - apply (C123_hazard_rate_cast DayDates tm DC day_laws src o tau k fuel flr c f C M I NS ND' (tenor_steps Tyear) H Hk PF)
      with (n := Z.to_nat (bd_day y - bd_day x)); auto; try (intros d _; apply (AL x y)); try lia.
    intros a b Ia Ib Hab. apply HF; auto. now apply Z.ltb_lt.
Qed.
Print Assumptions C123_business_dates.

(** curves on business dates which have discount factors: the cast succeeds as soon as there
    are two dates *)
Lemma short_of_factors (DC : DayCounts R bdate) (src : rcurve R bdate bperiod) o tau fuel flr f :
  castable (DS:=DayDates) src o tau -> monotone (DS:=DayDates) tau -> NoDup (map bd_day (rc_domain src)) ->
  is_interest (rc_cls src) = true -> rc_cls src <> CShortRate ->
  (exists a b, In a (rc_domain src) /\ In b (rc_domain src) /\ bd_day a <> bd_day b) -> (5 <= fuel)%nat ->
  (forall x, 0 < f x) ->
  (forall n s t, In s (rc_domain src) -> In t (rc_domain src) -> get_discount_factor (DS:=DayDates) (S (S n)) src s t = Ok (f t / f s)) ->
  exists c, rc_cast (DS:=DayDates) fuel flr CShortRate src None None DcDefault None = Ok c /\
  forall x y m m', In x (rc_domain src) -> In y (rc_domain src) -> (bd_day x <= bd_day y)%Z ->
    (bd_day y - bd_day x + 3 <= Z.of_nat m)%Z -> (2 <= m')%nat -> exists df,
    get_discount_factor (DS:=DayDates) m c x y = Ok df /\ get_discount_factor (DS:=DayDates) m' src x y = Ok df.
Proof.
  intros C M ND K NS [a [b [Ia [Ib Nab]]]] HF PF DFf.
  set (tm := fun d => IZR (bd_day d) / (1461 / 4)).
  assert (ND' : NoDup (map tm (rc_domain src))).
  { replace (map tm (rc_domain src)) with (map (fun z => IZR z / (1461 / 4)) (map bd_day (rc_domain src))) by (now rewrite map_map).
    apply FinFun.Injective_map_NoDup; auto. intros u w E. apply eq_IZR. lra. }
  assert (OW : ~ own_rate (rc_cls src)) by (intros [E|E]; [auto|rewrite E in K; discriminate]).
  assert (TMI : forall u w, tm u < tm w <-> (bd_day u < bd_day w)%Z).
  { intros u w. unfold tm. split; intro Q; [apply lt_IZR; lra|apply IZR_lt in Q; lra]. }
  assert (TML : forall u w, tm u <= tm w <-> (bd_day u <= bd_day w)%Z).
  { intros u w. unfold tm. split; intro Q; [apply le_IZR; lra|apply IZR_le in Q; lra]. }
  destruct (d_max_ok (L:=day_laws) (rc_domain src) (ca_domain _ _ _ C)) as [hi [_ [Ih Hh]]]. fold tm in Hh.
  destruct (d_min_ok (L:=day_laws) (rc_domain src) (ca_domain _ _ _ C)) as [lo [_ [Il Hl]]]. fold tm in Hl.
  assert (LH : (bd_day lo < bd_day hi)%Z).
  { pose proof (proj1 (TML _ _) (Hl a Ia)). pose proof (proj1 (TML _ _) (Hl b Ib)). pose proof (proj1 (TML _ _) (Hh a Ia)).
    pose proof (proj1 (TML _ _) (Hh b Ib)). lia. }
  assert (IN : forall n t, (bd_day lo <= bd_day t < bd_day hi)%Z -> exists r, short_rate (DS:=DayDates) (4 + n) src t = Ok r).
  { intros n t Ht. destruct (neighbours (L:=day_laws) (rc_domain src) lo hi t Il Ih) as [p [q [Ip [Iq [Hpq Hd]]]]].
    { split; [apply TML|apply TMI]; apply Ht. }
    fold tm in Hpq, Hd. change (4 + n)%nat with (S (3 + n)). rewrite (short_between (L:=day_laws) src (3 + n) t p q); auto; fold tm; try tauto.
    - eexists. apply (rate_of_factor src tau (ca_time _ _ _ C) 2 (3 + n) p q (f q / f p)); try lia.
      + apply (eqb_f (L:=day_laws)). fold tm. lra.
      + specialize (DFf 0%nat p q Ip Iq). unfold get_discount_factor, interest_only in DFf. rewrite K in DFf. exact DFf.
      + apply Rdiv_lt_0_compat; auto. }
  assert (SRT : forall x, In x (rc_domain src) -> exists r, get_short_rate (DS:=DayDates) fuel src x = Ok r).
  { intros x Ix. unfold get_short_rate, interest_only. rewrite K. destruct fuel as [|[|[|[|[|n]]]]]; try lia.
    pose proof (proj1 (TML _ _) (Hl x Ix)) as Q1. pose proof (proj1 (TML _ _) (Hh x Ix)) as Q2.
    destruct (Z.eq_dec (bd_day x) (bd_day hi)) as [Q|Q]; [|apply (IN (S n)); lia].
    rewrite (short_after (L:=day_laws) src (4 + n) x hi (BD (bd_day hi - 1) 0)); auto; try (intro E; rewrite E in K; discriminate); fold tm.
    - apply (IN n). cbn [bd_day]. lia.
    - apply TML. lia. }
  destruct (C87_to_short_rate DayDates tm DC day_laws src o tau fuel flr C K ND' SRT) as [c [Ec _]].
  exists c. split; auto. intros x y m m' Ix Iy Hxy Hm Hm'. exists (f y / f x).
  destruct m' as [|[|m']]; try lia. split; [|now apply DFf].
  destruct (C123_business_dates DC src o tau 2 fuel flr c f C M ND ltac:(lia) ltac:(auto)) as [G _].
  apply G; auto.
Qed.

(** zero rate curves on business dates: the cast succeeds as soon as there are two dates, and
    keeps all discount factors between dates of the grid *)
Theorem C123_zero_rate_curve : forall (DC : DayCounts R bdate) (src : rcurve R bdate bperiod) o tau fuel flr,
  castable (DS:=DayDates) src o tau -> monotone (DS:=DayDates) tau -> NoDup (map bd_day (rc_domain src)) ->
  rc_cls src = CZeroRate -> (exists a b, In a (rc_domain src) /\ In b (rc_domain src) /\ bd_day a <> bd_day b) -> (5 <= fuel)%nat ->
  exists c, rc_cast (DS:=DayDates) fuel flr CShortRate src None None DcDefault None = Ok c /\
  forall x y m m', In x (rc_domain src) -> In y (rc_domain src) -> (bd_day x <= bd_day y)%Z ->
    (bd_day y - bd_day x + 3 <= Z.of_nat m)%Z -> (2 <= m')%nat -> exists df,
    get_discount_factor (DS:=DayDates) m c x y = Ok df /\ get_discount_factor (DS:=DayDates) m' src x y = Ok df.
Proof.
  intros DC src o tau fuel flr C M ND K AB HF.
  set (v := fun x => value_of (rc_call (DS:=DayDates) src x)).
  assert (HV : forall x, In x (rc_domain src) -> rc_call (DS:=DayDates) src x = Ok (v x)).
  { intros x Ix. apply value_of_ok. destruct (ca_value _ _ _ C x Ix) as [y E]. exists y. exact E. }
  assert (FK : flat_cls (rc_cls src)) by (rewrite K; now left).
  assert (DF : forall n s t, In s (rc_domain src) -> In t (rc_domain src) ->
            get_discount_factor (DS:=DayDates) (S (S n)) src s t = Ok (exp (- (v t * tau o t - v s * tau o s)))).
  { intros n s t Is It. unfold get_discount_factor, interest_only. rewrite K. cbn [is_interest].
    apply (flat_factor (L:=day_laws) src o tau (ca_origin _ _ _ C) (ca_time _ _ _ C)); auto; try (apply HV; auto). apply (ca_date _ _ _ C). }
  set (f := fun x => exp (- (v x * tau o x))).
  assert (DFf : forall n s t, In s (rc_domain src) -> In t (rc_domain src) ->
            get_discount_factor (DS:=DayDates) (S (S n)) src s t = Ok (f t / f s)).
  { intros n s t Is It. rewrite DF by auto. f_equal. unfold f, Rdiv. rewrite <- exp_Ropp, <- exp_plus. f_equal. ring. }
  assert (PF : forall x, 0 < f x) by (intro x; apply exp_pos).
  apply (short_of_factors DC src o tau fuel flr f); auto; rewrite K; [reflexivity|discriminate].
Qed.
Print Assumptions C123_zero_rate_curve.

(** the same for curves of positive discount factors, if the origin has the factor one *)
Theorem C123_discount_factor_curve : forall (DC : DayCounts R bdate) (src : rcurve R bdate bperiod) o tau fuel flr,
  castable (DS:=DayDates) src o tau -> monotone (DS:=DayDates) tau -> NoDup (map bd_day (rc_domain src)) ->
  rc_cls src = CDiscountFactor -> (forall x v, In x (rc_domain src) -> rc_call (DS:=DayDates) src x = Ok v -> 0 < v) ->
  (forall x, In x (rc_domain src) -> bd_day x = bd_day o -> rc_call (DS:=DayDates) src x = Ok 1) ->
  (exists a b, In a (rc_domain src) /\ In b (rc_domain src) /\ bd_day a <> bd_day b) -> (5 <= fuel)%nat ->
  exists c, rc_cast (DS:=DayDates) fuel flr CShortRate src None None DcDefault None = Ok c /\
  forall x y m m', In x (rc_domain src) -> In y (rc_domain src) -> (bd_day x <= bd_day y)%Z ->
    (bd_day y - bd_day x + 3 <= Z.of_nat m)%Z -> (2 <= m')%nat -> exists df,
    get_discount_factor (DS:=DayDates) m c x y = Ok df /\ get_discount_factor (DS:=DayDates) m' src x y = Ok df.
Proof.
  intros DC src o tau fuel flr C M ND K POS ONE AB HF.
  set (v := fun x => value_of (rc_call (DS:=DayDates) src x)).
  assert (HV : forall x, In x (rc_domain src) -> rc_call (DS:=DayDates) src x = Ok (v x)).
  { intros x Ix. apply value_of_ok. destruct (ca_value _ _ _ C x Ix) as [y E]. exists y. exact E. }
  set (f := fun x => if Rlt_dec 0 (v x) then v x else 1).
  assert (FV : forall x, In x (rc_domain src) -> f x = v x).
  { intros x Ix. unfold f. destruct (Rlt_dec 0 (v x)) as [|Q]; auto. elim Q. apply (POS x); auto. }
  apply (short_of_factors DC src o tau fuel flr f); auto; try (rewrite K; discriminate).
  - now rewrite K.
  - intros x. unfold f. destruct (Rlt_dec 0 (v x)); lra.
  - intros n s t Is It. rewrite !FV by auto. unfold get_discount_factor, interest_only. rewrite K. cbn [is_interest factor]. rewrite K.
    rewrite (HV t It), (HV s Is). cbn [bind].
    assert (NZ : v s <> 0) by (pose proof (POS s (v s) Is (HV s Is)); lra).
    destruct (at_origin src s) eqn:AO.
    + unfold at_origin in AO. rewrite (ca_origin _ _ _ C) in AO. cbn in AO. apply andb_prop in AO. destruct AO as [Q _]. apply Z.eqb_eq in Q.
      pose proof (ONE s Is Q) as E. rewrite (HV s Is) in E. injection E as ->. f_equal. field.
    + rn. now apply Rdivp_ok.
Qed.
Print Assumptions C123_discount_factor_curve.

(** REFUTED from an origin before the first date of the grid: the new curve discounts with
    the rate between the first two dates, whatever the discount factor of the other curve *)
Theorem C123_origin_refuted : forall {D P} (DS : DateSys R D P) (tm : D -> R) (DC : DayCounts R D),
  DateLaws DS tm -> forall (src : rcurve R D P) o tau fuel flr c, castable src o tau -> monotone tau ->
  is_interest (rc_cls src) = true -> rc_cls src <> CShortRate -> NoDup (map tm (rc_domain src)) ->
  rc_cast (S fuel) flr CShortRate src None None DcDefault None = Ok c ->
  forall p q r, In p (rc_domain src) -> In q (rc_domain src) -> d_ltb p q = true ->
  (forall d, In d (rc_domain src) -> d_eqb d p = true \/ d_leb q d = true) ->
  get_zero_rate fuel src p q = Ok r ->
  forall (ds : nat -> D) n m, schedule (p_str Tday) ds n -> ds 0%nat = o -> d_eqb (ds n) p = true -> (n + 3 <= m)%nat ->
  get_discount_factor1 m c p = Ok (exp (- (r * tau o p))).
Proof.
  intros D P DS tm DC L src o tau fuel flr c C M I NS ND H p q r Ip Iq Hpq Hd Er ds n m Sc E0 En Hm.
  assert (NC : rc_cls src <> CHazard) by (intro E; rewrite E in I; discriminate).
  apply ltb_inv in Hpq. assert (Hd' : forall d, In d (rc_domain src) -> tm d = tm p \/ tm q <= tm d).
  { intros d Id. destruct (Hd d Id) as [W|W]; [apply eqb_inv in W|apply leb_inv in W]; auto. }
  unfold rc_cast in H. cbv zeta in H.
  destruct (stored_value (L:=L) src o tau C CShortRate (S fuel) flr (rc_domain src) o None c) as [B [V _]]; auto;
    try exact (ca_domain _ _ _ C); try exact (ca_origin _ _ _ C).
  destruct (stored_left (L:=L) src o tau C M CShortRate (S fuel) flr (rc_domain src) None o None c) as [_ HB]; auto;
    try exact (ca_domain _ _ _ C); try exact (ca_origin _ _ _ C).
  destruct B as [B1 [B2 [B3 [B4 [B5 [B6 [B7 [B8 [B9 B10]]]]]]]]].
  assert (Vp : rc_call c p = Ok r).
  { rewrite V by auto. cbn [storage_value]. rewrite <- Er. unfold get_short_rate, get_zero_rate, interest_only. rewrite I.
    apply (short_between (L:=L)); auto; try lra. { unfold own_rate. tauto. } intros d Id. destruct (Hd' d Id); [left; lra|auto]. }
  unfold get_discount_factor1, from_origin. rewrite B3. unfold get_discount_factor, interest_only. rewrite B1. cbn [is_interest].
  rewrite <- (factor_end (L:=L) c tau B10 B9 (ds n) p En). apply eqb_inv in En.
  assert (TM : forall i j, (i < j <= n)%nat -> tm (ds i) < tm (ds j)) by (apply (schedule_tm _ _ _ Sc)).
  assert (HV : forall i, (i < n)%nat -> has_value c (ds i) r).
  { intros i Hi. unfold has_value. rewrite (HB p (ds i)); auto.
    - intros d Id. destruct (Hd' d Id); lra.
    - pose proof (TM i n ltac:(lia)). lra. }
  pose proof (daily_factor (L:=L) c tau B10 m n ds (fun _ => r) 0 n ltac:(auto) Sc HV ltac:(lia) Hm) as DF. cbn [Nat.add] in DF.
  rewrite <- E0, DF.
  do 3 f_equal.
  assert (G : forall j, (j <= n)%nat -> sum_n (fun i => r * tau (ds i) (ds (S i))) j = r * tau (ds 0%nat) (ds j)).
  { induction j; intro Hj.
    - rewrite (tau_eq B10) by apply eqb_refl. unfold sum_n. cbn. ring.
    - rewrite sum_n_last, IHj by lia. rewrite <- (add_add _ _ B10 (ds 0%nat) (ds j) (ds (S j))). ring. }
  rewrite (G n) by lia. f_equal.
  pose proof (add_add _ _ B10 (ds 0%nat) (ds n) p) as Q. rewrite (tau_eq B10 (ds n) p) in Q by (now apply eqb_t). lra.
Qed.
Print Assumptions C123_origin_refuted.

(** the zero rates 10% and 20% after ten and twenty days: with a rate at the origin the short
    rate curve has the same discount factors, without one it has others *)
Section Instance.
  Notation tauD := (fun a b : bdate => (IZR (bd_day b) / (1461 / 4) - IZR (bd_day a) / (1461 / 4))).
  Lemma zero_days ds ys o : length ds = length ys -> NoDup (map bd_day ds) -> ds <> [] ->
    exists z : rcurve R bdate bperiod, rc_new (DS:=DayDates) CZeroRate ds ys None (Some o) DcDefault None = Ok z /\
      rc_domain z = ds /\ castable (DS:=DayDates) z o tauD /\ rc_cls z = CZeroRate /\
      (forall x, exists v, has_value (DS:=DayDates) z x v) /\
      forall d y, In (d, y) (combine ds ys) -> rc_call (DS:=DayDates) z d = Ok y.
  Proof.
    intros HL ND NE.
    destruct (rc_new_linear (L:=day_laws) DcDefault _ (default_additive (L:=day_laws)) CZeroRate ds ys (Some o) o None) as [z [E [B [V V']]]]; auto.
    { reflexivity. }
    { rewrite <- (map_map bd_day (fun z => IZR z / (1461 / 4))). apply FinFun.Injective_map_NoDup; auto. intros u w Q. apply eq_IZR. lra. }
    destruct B as [B1 [B2 [B3 [B4 [B5 [B6 [B7 [B8 [B9 B10]]]]]]]]].
    assert (VA : forall x, exists v, has_value (DS:=DayDates) z x v).
    { intro x. destruct (V' x) as [v [Ev _]]. exists v. exact Ev. }
    exists z. split; auto. split; auto. split; [constructor; auto|].
    { rewrite B2. auto. } { intros n f. rewrite B6. discriminate. }
    split; auto.
  Qed.
  Lemma days_monotone : monotone (DS:=DayDates (T:=R)) tauD.
  Proof.
    intros a b. change (0 < IZR (bd_day b) / (1461 / 4) - IZR (bd_day a) / (1461 / 4) <-> Z.ltb (bd_day a) (bd_day b) = true).
    rewrite Z.ltb_lt. split; intro Q; [apply lt_IZR; lra|apply IZR_lt in Q; lra].
  Qed.

  Example C123_instance : exists z c : rcurve R bdate bperiod,
    rc_new (DS:=DayDates) CZeroRate [BD 0 1; BD 10 2; BD 20 3] [1 / 20; 1 / 10; 2 / 10] None (Some (BD 0 1)) DcDefault None = Ok z /\
    rc_cast (DS:=DayDates) 5 None CShortRate z None None DcDefault None = Ok c /\
    exists x, get_discount_factor (DS:=DayDates) 23 c (BD 0 1) (BD 20 3) = Ok x /\
              get_discount_factor (DS:=DayDates) 23 z (BD 0 1) (BD 20 3) = Ok x.
  Proof.
    destruct (zero_days [BD 0 1; BD 10 2; BD 20 3] [1 / 20; 1 / 10; 2 / 10] (BD 0 1)) as [z [E [B2 [C [K [VA V]]]]]]; auto.
    { repeat constructor; simpl; intuition lia. } { discriminate. }
    destruct (C123_zero_rate_curve no_registry4 z (BD 0 1) tauD 5 None C days_monotone) as [c [Ec Hc]]; auto.
    { rewrite B2. repeat constructor; simpl; intuition lia. }
    { exists (BD 0 1), (BD 10 2). rewrite B2. simpl. repeat split; auto; lia. }
    exists z, c. split; auto. split; auto. apply Hc; rewrite ?B2; simpl; auto; lia.
  Qed.

  Example C123_factors_instance : exists z c : rcurve R bdate bperiod,
    rc_new (DS:=DayDates) CDiscountFactor [BD 0 1; BD 10 2; BD 20 3] [1; 9 / 10; 7 / 10] None (Some (BD 0 1)) DcDefault None = Ok z /\
    rc_cast (DS:=DayDates) 5 None CShortRate z None None DcDefault None = Ok c /\
    get_discount_factor (DS:=DayDates) 23 c (BD 0 1) (BD 20 3) = Ok (7 / 10) /\
    get_discount_factor (DS:=DayDates) 13 c (BD 10 2) (BD 20 3) = Ok (7 / 10 / (9 / 10)).
  Proof.
    destruct (rc_new_rate (L:=day_laws) DcDefault _ (default_additive (L:=day_laws)) CDiscountFactor [BD 0 1; BD 10 2; BD 20 3] [1; 9 / 10; 7 / 10] [1; 9 / 10; 7 / 10]
      (Some (BD 0 1)) (BD 0 1) None) as [z [E [B [V _]]]]; auto.
    { left; auto. } { cbn. repeat constructor; simpl; intuition lra. } { exists (BD 10 2). cbn. split; [auto|lra]. } { simpl. intros y H. intuition lra. }
    destruct B as [B1 [B2 [B3 [B4 [B5 [B6 [B7 [B8 [B9 B10]]]]]]]]].
    assert (V0 : rc_call (DS:=DayDates) z (BD 0 1) = Ok 1) by (apply V; simpl; auto).
    assert (V1 : rc_call (DS:=DayDates) z (BD 10 2) = Ok (9 / 10)) by (apply V; simpl; auto).
    assert (V2 : rc_call (DS:=DayDates) z (BD 20 3) = Ok (7 / 10)) by (apply V; simpl; auto).
    assert (C : castable (DS:=DayDates) z (BD 0 1) tauD).
    { constructor; auto.
      - rewrite B2. discriminate.
      - rewrite B2. intros x [<-|[<-|[<-|[]]]]; eexists; eauto.
      - intros n f. rewrite B6. discriminate. }
    destruct (C123_discount_factor_curve no_registry4 z (BD 0 1) tauD 5 None C days_monotone) as [c [Ec Hc]]; auto.
    { rewrite B2. repeat constructor; simpl; intuition lia. }
    { rewrite B2. intros x v [<-|[<-|[<-|[]]]]; rewrite ?V0, ?V1, ?V2; intros Q; injection Q as <-; lra. }
    { rewrite B2. intros x [<-|[<-|[<-|[]]]] Q; auto; discriminate Q. }
    { exists (BD 0 1), (BD 10 2). rewrite B2. simpl. repeat split; auto; lia. }
    exists z, c. split; auto. split; auto. split.
    - destruct (Hc (BD 0 1) (BD 20 3) 23%nat 2%nat) as (x & X1 & X2); rewrite ?B2; simpl; auto; try lia.
      rewrite X1, <- X2. unfold get_discount_factor, interest_only. rewrite B1. cbn [is_interest factor]. rewrite B1.
      replace (at_origin z (BD 0 1)) with true; auto. unfold at_origin. rewrite B3. reflexivity.
    - destruct (Hc (BD 10 2) (BD 20 3) 13%nat 2%nat) as (x & X1 & X2); rewrite ?B2; simpl; auto; try lia.
      rewrite X1, <- X2. unfold get_discount_factor, interest_only. rewrite B1. cbn [is_interest factor]. rewrite B1.
      replace (at_origin z (BD 10 2)) with false by (unfold at_origin; rewrite B3; reflexivity).
      rewrite V1, V2. cbn [bind]. rn. apply Rdivp_ok. lra.
  Qed.

  Example C123_refuted_instance : exists z c : rcurve R bdate bperiod,
    rc_new (DS:=DayDates) CZeroRate [BD 10 1; BD 20 2] [1 / 10; 2 / 10] None (Some (BD 0 3)) DcDefault None = Ok z /\
    rc_cast (DS:=DayDates) 5 None CShortRate z None None DcDefault None = Ok c /\
    get_discount_factor1 (DS:=DayDates) 13 c (BD 10 1) = Ok (exp (- (3 / 10 * (10 / (1461 / 4))))) /\
    get_discount_factor1 (DS:=DayDates) 13 z (BD 10 1) = Ok (exp (- (1 / 10 * (10 / (1461 / 4))))) /\
    exp (- (3 / 10 * (10 / (1461 / 4)))) <> exp (- (1 / 10 * (10 / (1461 / 4)))).
  Proof.
    destruct (zero_days [BD 10 1; BD 20 2] [1 / 10; 2 / 10] (BD 0 3)) as [z [E [B2 [C [K [VA V]]]]]]; auto.
    { repeat constructor; simpl; intuition lia. } { discriminate. }
    destruct (C123_zero_rate_curve no_registry4 z (BD 0 3) tauD 5 None C days_monotone) as [c [Ec Hc]]; auto.
    { rewrite B2. repeat constructor; simpl; intuition lia. }
    { exists (BD 10 1), (BD 20 2). rewrite B2. simpl. repeat split; auto; lia. }
    assert (V1 : rc_call (DS:=DayDates) z (BD 10 1) = Ok (1 / 10)) by (apply V; simpl; auto).
    assert (V2 : rc_call (DS:=DayDates) z (BD 20 2) = Ok (2 / 10)) by (apply V; simpl; auto).
    destruct (VA (BD 0 3)) as [v0 V0].
    exists z, c. split; auto. split; auto. split; [|split].
    - rewrite (C123_origin_refuted DayDates _ no_registry4 day_laws z (BD 0 3) tauD 4 None c C days_monotone) with
        (q := BD 20 2) (r := 3 / 10) (n := 10%nat) (ds := fun k => match k with O => BD 0 3 | S _ => BD (Z.of_nat k) 0 end); auto.
      + do 4 f_equal. cbn [bd_day]. lra.
      + now rewrite K.
      + rewrite K; discriminate.
      + rewrite B2. cbn. repeat constructor; simpl; intuition lra.
      + rewrite B2. simpl. auto.
      + rewrite B2. simpl. auto.
      + rewrite B2. intros d [<-|[<-|[]]]; cbn; auto.
      + unfold get_zero_rate, interest_only. rewrite K. cbn [is_interest].
        rewrite (flat_rate (L:=day_laws) z (BD 0 3) tauD (ca_origin _ _ _ C) (ca_time _ _ _ C) 3 (BD 10 1) (BD 20 2) (1 / 10) (2 / 10)); auto.
        * f_equal. cbn [bd_day]. lra.
        * rewrite K. now left.
      + intros k Hk. split.
        * rewrite day_plus. do 2 f_equal. destruct k; cbn [bd_day]; lia.
        * cbn. apply Z.ltb_lt. destruct k; cbn [bd_day]; lia.
    - unfold get_discount_factor1, from_origin. rewrite (ca_origin _ _ _ C). unfold get_discount_factor, interest_only. rewrite K. cbn [is_interest].
      rewrite (flat_factor (L:=day_laws) z (BD 0 3) tauD (ca_origin _ _ _ C) (ca_time _ _ _ C) 11 (BD 0 3) (BD 10 1) v0 (1 / 10)); auto.
      + do 2 f_equal. cbn [bd_day]. lra.
      + rewrite K. now left.
      + apply (ca_date _ _ _ C).
    - intro Q. apply exp_inv in Q. lra.
  Qed.
End Instance.
