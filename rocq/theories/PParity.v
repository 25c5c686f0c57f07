(** Properties C84, C85: what floating legs are worth, and the par rate of a swap. *)
From Coq Require Import Reals Lra Lia List Bool ZArith.
From Verif Require Import Num Py Spec MDates MCurve MRateCurve MOption MCashflow MBracket MPricer
  SDates SRateCurve SCashflow SPricer SBracket SYield LBase LSort LDates LDateCurve LCashflow LRateCurve LAccrued LPricer
  LPricer2 LBracket LYield LFair PBracket PCashflow PRateCurve PRateCurve2 PPricer PPricer2 PFair.
Import ListNotations.
Open Scope R_scope.

(** * Vocabulary *)
Section Spec.
  Context {D P : Type} {DS : DateSys R D P} (tm : D -> R) {DC : DayCounts R D}.
  Implicit Types (h : heap R D P) (disc : rcurve R D P).

  (** s and e are start and end of a period of the dates o, d1, d2, ... *)
  Definition period (o : D) (dates : list D) (s e : D) : Prop :=
    exists i, nth_error (o :: dates) i = Some s /\ nth_error dates i = Some e.

  (** the curve discounts the dates to v by the factors [DF], consistently with its factors
      for the single periods *)
  Definition discounts (fuel : nat) disc (v o : D) (dates : list D) (DF : D -> R) : Prop :=
    (forall d, In d (o :: dates) -> get_discount_factor fuel disc v d = Ok (DF d)) /\
    (forall s e, period o dates s e -> exists q, get_discount_factor fuel disc s e = Ok q /\ q <> 0 /\ DF s * q = DF e).

  (** the dates follow each other by one tenor of the curve, the coupons are computed with the
      year fractions of the curve, all of them are paid at v or later *)
  Definition floats disc (count : dcspec R D) (tau : D -> D -> R) (v o : D) (dates : list D) : Prop :=
    is_interest (rc_cls disc) = true /\ additive (rc_yf disc) tau /\ NoDup (map tm dates) /\
    forall s e, period o dates s e ->
      d_add s (rc_tenor disc) = Ok e /\ d_eqb s e = false /\ pay_count count s e = Ok (tau s e) /\ d_leb v e = true.

  (** list number i is the leg: notionals [amounts], margin c, forward rates of the curve k
      which discounts it *)
  Definition float_leg h (i k : nat) disc (o : D) (dates : list D) (amounts : list R) (count : dcspec R D) (c : R) : Prop :=
    nth_error (h_curves h) k = Some disc /\
    exists l s fixing payo, no_offset fixing /\ no_offset payo /\ s (h_curves h) = FwRate disc /\
      nth_error (h_lists h) i = Some (mkHL l (HForward s)) /\
      ratelist_new dates (Many amounts) (Some o) count fixing payo c (FwRate disc) = Ok l.
End Spec.

(** * C84: floating legs *)
Section Float.
  Context {D P : Type} (DS : DateSys R D P) (tm : D -> R) (DC : DayCounts R D) (L : DateLaws DS tm).
  Implicit Types (h : heap R D P) (disc : rcurve R D P).

  (** each coupon is worth the difference of the discount factors of its period, plus margin *)
  Theorem C84_coupons : forall fuel flr h i k disc v o dates amounts count c tau DF,
    float_leg h i k disc o dates amounts count c -> floats tm disc count tau v o dates ->
    discounts fuel disc v o dates DF -> discounts (S fuel) disc v o dates DF ->
    (rc_cls disc = CCashRate -> forall s e, period o dates s e ->
       exists f, has_value disc s f /\ get_discount_factor fuel disc s e = Ok (/ (1 + f * tau s e)) /\ 1 + f * tau s e <> 0) ->
    returns (get_present_value (S fuel) flr (PrList i) k (Some v)) h
      (Rsum (map (fun x => let '(s, e, n) := x in n * (DF s - DF e + c * tau s e * DF e)) (combine (combine (o :: dates) dates) amounts))).
  Proof.
    intros fuel flr h i k disc v o dates amounts count c tau DF
      [Hk (l & s & fixing & payo & NF & NP & HS & Hi & HN)] (KI & A & ND & HP) [_ H1] [H2 _] KC.
    assert (NF' : forall d, moved_back d fixing d) by (intros; apply moved_offset, offset_none; auto).
    assert (NP' : forall d, moved_back d payo d) by (intros; apply moved_offset, offset_none; auto).
    destruct (C38_periods DS tm L _ _ _ _ _ _ _ _ _ HN ND) as (LEN & DOM & _).
    assert (AT : cf_attr l = LForward (FwRate disc)).
    { unfold ratelist_new in HN. cbn [start_dates bind] in HN. destruct (rate_payoffs _ _ _ _ _ _ _); [|discriminate]. cbn [bind] in HN.
      destruct (cf_new_inv _ _ _ _ _ _ HN) as [_ ->]. reflexivity. }
    apply (C40_list DS DC (S fuel) flr h i k disc v l); auto.
    { exists (mkHL l (HForward s)), (LForward (FwRate disc)). split; auto. split; [|cbn; now rewrite HS]. cbn [hl_list].
      rewrite <- AT. now destruct l. }
    assert (V : forall j a b n, nth_error (o :: dates) j = Some a -> nth_error dates j = Some b -> nth_error amounts j = Some n ->
              discounted (S fuel) flr disc v l b (n * (DF a - DF b + c * tau a b * DF b))).
    { intros j a b n Ha Hb Hn. assert (PE : period o dates a b) by (exists j; auto).
      destruct (HP a b PE) as (Q1 & Q2 & Q3 & Q4).
      assert (Ib : In b (o :: dates)) by (right; eapply nth_error_In; eauto).
      destruct (H1 a b PE) as [q [E1 [Z1 M]]].
      pose proof (tau_ne disc tau A a b Q2) as TZ.
      exists (DF b), ((c + (1 / q - 1) / tau a b) * tau a b * n). split; [auto|]. split.
      - apply (C38_flow DS DC tm L (S fuel) flr _ _ _ _ _ _ _ _ _ HN ND j a b n a b a _ (tau a b)); auto; [|apply eqb_refl].
        cbn [forward_at]. rewrite KI.
        assert (CD : rc_cls disc = CCashRate \/ rc_cls disc <> CCashRate) by (destruct (rc_cls disc); (left; reflexivity) || (right; discriminate)).
        destruct CD as [K|K].
        + destruct (KC K a b PE) as [f [HF [HQ HZ]]]. rewrite E1 in HQ. injection HQ as ->.
          destruct (C24_cash_rate_curve DS tm DC L disc a b f fuel K Q1 HF) as [E _]. rewrite E. f_equal. field. auto.
        + now destruct (C24_cash_rate DS tm DC L disc tau A K fuel a b _ Q2 E1 Z1) as (_ & _ & CR); apply CR.
      - rewrite <- M. field. auto. }
    unfold worth, due. rewrite DOM. exists (map (fun x => let '(a, b, n) := x in n * (DF a - DF b + c * tau a b * DF b)) (combine (combine (o :: dates) dates) amounts)).
    split; [|reflexivity].
    assert (FI : filter (fun d => d_leb v d) dates = dates).
    { assert (G : forall j b, nth_error dates j = Some b -> d_leb v b = true).
      { intros j b Hb. destruct (nth_error (o :: dates) j) as [a|] eqn:Ha.
        - apply (HP a b). exists j. auto.
        - apply nth_error_None in Ha. assert (j < length dates)%nat by (apply nth_error_Some; congruence). cbn in Ha. lia. }
      clear -G. induction dates as [|d ds IH]; [reflexivity|]. cbn [filter]. rewrite (G 0%nat d eq_refl). f_equal. apply IH.
      intros j b Hb. apply (G (S j) b Hb). }
    rewrite FI. clear -V LEN. revert o amounts V LEN. induction dates as [|d ds IH]; intros o am V LEN.
    - cbn. constructor.
    - destruct am as [|n am]; [cbn in LEN; lia|]. cbn [combine map]. constructor.
      + apply (V 0%nat); reflexivity.
      + apply IH; [|cbn in LEN; lia]. intros j a b m Ha Hb Hm. apply (V (S j)); auto.
  Qed.

  Lemma telescope (DF : D -> R) tau n dates : forall o,
    Rsum (map (fun x => let '(s, e, m) := x in m * (DF s - DF e + 0 * tau s e * DF e))
              (combine (combine (o :: dates) dates) (repeat n (length dates)))) =
    n * (DF o - DF (last dates o)).
  Proof.
    set (F := fun x : D * D * R => let '(s, e, m) := x in m * (DF s - DF e + 0 * tau s e * DF e)).
    induction dates as [|d ds IH]; intro o; [cbn; lra|].
    change (F (o, d, n) + Rsum (map F (combine (combine (d :: ds) ds) (repeat n (length ds)))) = n * (DF o - DF (last (d :: ds) o))).
    rewrite IH, last_default. unfold F. lra.
  Qed.

  (** without margin and with a constant notional: the discount factor of the start less that
      of the end - whatever the rates and the number of coupons.
      Zero rate curves, any interpolation and spread, any valuation date: *)
  Theorem C84_zero_rate_curve : forall flr h i k disc v o dates n count tau oc z,
    float_leg h i k disc o dates (repeat n (length dates)) count 0 -> floats tm disc count tau v o dates ->
    rc_cls disc = CZeroRate -> rc_origin disc = Some oc -> date_values disc ->
    (forall d, In d (v :: o :: dates) -> has_value disc d (z d)) ->
    forall fuel, (3 <= fuel)%nat -> exists p q,
      get_discount_factor fuel disc v o = Ok p /\ get_discount_factor fuel disc v (last dates o) = Ok q /\
      returns (get_present_value fuel flr (PrList i) k (Some v)) h (n * (p - q)).
  Proof.
    intros flr h i k disc v o dates n count tau oc z FL FT K HO DV HV fuel HF.
    set (DF := fun d => exp (- (z d * tau oc d - z v * tau oc v))).
    pose proof FT as (_ & A & _).
    assert (G : forall f, (2 <= f)%nat -> discounts f disc v o dates DF).
    { intros f Hf. split.
      - intros d Id. assert (Vd : has_value disc d (z d)) by (apply HV; now right). assert (Vv : has_value disc v (z v)) by (apply HV; now left).
        destruct (C21_zero_rate_curve DS tm DC L disc oc tau HO A DV K v d d _ _ _ Vv Vd Vd f Hf) as (x & y & E & _ & _ & -> & _). exact E.
      - intros s e [j [Hs He]]. assert (Is : In s (o :: dates)) by (eapply nth_error_In; eauto).
        assert (Ie : In e (o :: dates)) by (right; eapply nth_error_In; eauto).
        assert (Vs : has_value disc s (z s)) by (apply HV; now right). assert (Ve : has_value disc e (z e)) by (apply HV; now right).
        destruct (C21_zero_rate_curve DS tm DC L disc oc tau HO A DV K s e e _ _ _ Vs Ve Ve f Hf) as (x & y & E & _ & _ & Ex & Px).
        exists x. split; [exact E|]. split; [lra|]. subst x. unfold DF. rewrite <- exp_plus. f_equal. lra. }
    exists (DF o), (DF (last dates o)).
    assert (IL : In (last dates o) (o :: dates)).
    { clear. destruct dates as [|d ds]; [now left|]. right. rewrite (last_nth (d :: ds) o). apply nth_In. cbn. lia. }
    split; [apply (G fuel ltac:(lia)); now left|]. split; [now apply (G fuel ltac:(lia))|].
    destruct fuel as [|fuel]; [lia|].
    pose proof (C84_coupons fuel flr h i k disc v o dates _ count 0 tau DF FL FT (G fuel ltac:(lia)) (G (S fuel) ltac:(lia))) as H.
    rewrite telescope in H. apply H. rewrite K. discriminate.
  Qed.

  (** discount factor curves with value one at the origin *)
  Theorem C84_discount_factor_curve : forall flr h i k disc v o dates n count tau w,
    float_leg h i k disc o dates (repeat n (length dates)) count 0 -> floats tm disc count tau v o dates ->
    rc_cls disc = CDiscountFactor ->
    (forall d, In d (v :: o :: dates) -> has_value disc d (w d) /\ w d <> 0 /\ (is_origin disc d -> w d = 1)) ->
    forall fuel, (2 <= fuel)%nat ->
      returns (get_present_value fuel flr (PrList i) k (Some v)) h (n * (w o - w (last dates o)) / w v).
  Proof.
    intros flr h i k disc v o dates n count tau w FL FT K HV fuel HF.
    set (DF := fun d => w d / w v).
    assert (V0 : forall a b, In a (v :: o :: dates) -> In b (v :: o :: dates) -> forall f, (1 <= f)%nat -> get_discount_factor f disc a b = Ok (w b / w a)).
    { intros a b Ia Ib f Hf. destruct (HV a Ia) as (Va & Na & Oa). destruct (HV b Ib) as (Vb & Nb & Ob).
      destruct (C21_discount_factor_curve DS tm DC L disc K a b b _ _ _ Va Vb Vb Na Nb Ob f Hf) as (x & y & E & _ & _ & X1 & X2).
      rewrite E. f_equal. assert (OD : is_origin disc a \/ ~ is_origin disc a).
      { unfold is_origin. destruct (rc_origin disc) as [oc|]; [|right; intros (oc & H & _); discriminate].
        destruct (d_is a oc) eqn:EI; [left; eauto|right]. intros (oc' & H & H'). injection H as ->. congruence. }
      destruct OD as [OD|OD]; [|auto]. rewrite (X1 OD), (Oa OD). field. }
    assert (G : forall f, (1 <= f)%nat -> discounts f disc v o dates DF).
    { intros f Hf. split.
      - intros d Id. apply V0; auto; [now left|now right].
      - intros s e [j [Hs He]]. assert (Is : In s (v :: o :: dates)) by (right; eapply nth_error_In; eauto).
        assert (Ie : In e (v :: o :: dates)) by (right; right; eapply nth_error_In; eauto).
        exists (w e / w s). split; [now apply V0|]. destruct (HV s Is) as (_ & Ns & _). destruct (HV e Ie) as (_ & Ne & _).
        destruct (HV v (or_introl eq_refl)) as (_ & Nv & _). unfold DF. split; [|now field].
        intro Z. apply Ne. replace (w e) with (w e / w s * w s) by now field. rewrite Z. lra. }
    destruct fuel as [|fuel]; [lia|].
    pose proof (C84_coupons fuel flr h i k disc v o dates _ count 0 tau DF FL FT (G fuel ltac:(lia)) (G (S fuel) ltac:(lia))) as H.
    rewrite telescope in H. unfold DF in H. replace (n * (w o - w (last dates o)) / w v) with (n * (w o / w v - w (last dates o) / w v)).
    - apply H. rewrite K. discriminate.
    - destruct (HV v (or_introl eq_refl)) as (_ & Nv & _). now field.
  Qed.

  (** cash rate curves, at the start of the leg *)
  Theorem C84_cash_rate_curve : forall flr h i k disc o dates n count tau f,
    float_leg h i k disc o dates (repeat n (length dates)) count 0 -> floats tm disc count tau o o dates ->
    rc_cls disc = CCashRate ->
    (forall s e, period o dates s e -> d_ltb s e = true /\ has_value disc s (f s) /\ 0 < 1 + f s * tau s e) ->
    forall fuel, (length dates + 4 <= fuel)%nat -> exists q,
      get_discount_factor fuel disc o (last dates o) = Ok q /\
      q = prod_n (fun j => / (1 + f (nth j (o :: dates) o) * tau (nth j (o :: dates) o) (nth j dates o))) (length dates) /\
      returns (get_present_value fuel flr (PrList i) k (Some o)) h (n * (1 - q)).
  Proof.
    intros flr h i k disc o dates n count tau f FL FT K HV fuel HF.
    pose proof FT as (_ & A & ND & HP).
    set (ds := fun j => nth j (o :: dates) o). set (N := length dates).
    assert (PE : forall j, (j < N)%nat -> period o dates (ds j) (ds (S j))).
    { intros j Hj. exists j. unfold ds. split.
      - apply nth_error_nth'. cbn. unfold N in Hj. lia.
      - cbn [nth]. now apply nth_error_nth'. }
    assert (PI : forall s e, period o dates s e -> exists j, (j < N)%nat /\ s = ds j /\ e = ds (S j)).
    { intros s e [j [Hs He]]. exists j. assert (j < N)%nat by (apply nth_error_Some; congruence). split; auto. unfold ds.
      split; symmetry; [now apply nth_error_nth|]. cbn [nth]. now apply nth_error_nth. }
    assert (SC : schedule (rc_tenor disc) ds N).
    { intros j Hj. destruct (HP _ _ (PE j Hj)) as (Q1 & _). destruct (HV _ _ (PE j Hj)) as (Q2 & _). auto. }
    assert (C : forall a b g, (a <= b)%nat -> (b <= N)%nat -> (N + 3 <= g)%nat ->
       get_discount_factor g disc (ds a) (ds b) = Ok (prod_n (fun m => / (1 + f (ds (a + m)%nat) * tau (ds (a + m)%nat) (ds (S (a + m))))) (b - a)) /\
       forall b', (b <= b')%nat -> (b' <= N)%nat ->
         prod_n (fun m => / (1 + f (ds (a + m)%nat) * tau (ds (a + m)%nat) (ds (S (a + m))))) (b - a) *
         prod_n (fun m => / (1 + f (ds (b + m)%nat) * tau (ds (b + m)%nat) (ds (S (b + m))))) (b' - b) =
         prod_n (fun m => / (1 + f (ds (a + m)%nat) * tau (ds (a + m)%nat) (ds (S (a + m))))) (b' - a)).
    { intros a b g Ha Hb Hg.
      assert (X : forall b', (b <= b')%nat -> (b' <= N)%nat -> exists x y, get_discount_factor g disc (ds a) (ds b) = Ok x /\
         get_discount_factor g disc (ds b) (ds b') = Ok y /\ get_discount_factor g disc (ds a) (ds b') = Ok (x * y) /\
         x = prod_n (fun m => / (1 + f (ds (a + m)%nat) * tau (ds (a + m)%nat) (ds (S (a + m))))) (b - a) /\ 0 < x).
      { intros b' H1 H2. apply (C25_cash_rate_curve DS tm DC L disc tau A K ds N (fun j => f (ds j))); auto.
        - intros j Hj. now destruct (HV _ _ (PE j Hj)) as (_ & Q & _).
        - intros j Hj. now destruct (HV _ _ (PE j Hj)) as (_ & _ & Q). }
      split.
      - destruct (X b (Nat.le_refl _) Hb) as (x & y & E & _ & _ & -> & _). exact E.
      - intros b' H1 H2. replace (b' - a)%nat with ((b - a) + (b' - b))%nat by lia. rewrite prod_n_add. f_equal. apply prod_n_ext.
        intros m _. now replace (a + (b - a + m))%nat with (b + m)%nat by lia. }
    set (F := fun d => match get_discount_factor (N + 3) disc o d with Ok x => x | Err _ => 0 end).
    assert (FD : forall j, (j <= N)%nat -> F (ds j) = prod_n (fun m => / (1 + f (ds m) * tau (ds m) (ds (S m)))) j).
    { intros j Hj. unfold F. destruct (C 0%nat j (N + 3)%nat ltac:(lia) Hj ltac:(lia)) as [E _].
      change (ds 0%nat) with o in E at 1. rewrite E. replace (j - 0)%nat with j by lia. reflexivity. }
    assert (POS : forall j, (j < N)%nat -> 0 < 1 + f (ds j) * tau (ds j) (ds (S j))) by (intros j Hj; apply (HV _ _ (PE j Hj))).
    assert (G : forall g, (N + 3 <= g)%nat -> discounts g disc o o dates F).
    { intros g Hg. split.
      - intros d Id. apply (In_nth _ _ o) in Id. destruct Id as [j [Hj <-]]. cbn [length] in Hj. fold N in Hj. fold (ds j).
        destruct (C 0%nat j g ltac:(lia) ltac:(lia) Hg) as [E _]. change (ds 0%nat) with o in E at 1. rewrite E, FD by lia.
        replace (j - 0)%nat with j by lia. reflexivity.
      - intros s e HE. destruct (PI s e HE) as (j & Hj & -> & ->).
        destruct (C j (S j) g ltac:(lia) ltac:(lia) Hg) as [E _]. replace (S j - j)%nat with 1%nat in E by lia.
        eexists. split; [exact E|]. unfold prod_n at 1 2. cbn [seq map Rprod]. replace (j + 0)%nat with j by lia. specialize (POS j Hj).
        pose proof (Rinv_0_lt_compat _ POS). split; [lra|]. rewrite !FD by lia. rewrite prod_n_last. lra. }
    assert (EL : last dates o = ds N).
    { unfold ds, N. clear. destruct dates as [|d l]; [reflexivity|]. rewrite (last_nth (d :: l) o). now replace (length (d :: l) - 1)%nat with (length l) by (cbn; lia). }
    exists (F (last dates o)). rewrite EL. split; [|split].
    - rewrite <- EL. apply (G fuel ltac:(unfold N; lia)). rewrite EL. unfold ds. apply nth_In. cbn. unfold N. lia.
    - rewrite FD by lia. apply prod_n_ext. intros m Hm. reflexivity.
    - destruct fuel as [|fuel]; [lia|].
      pose proof (C84_coupons fuel flr h i k disc o o dates _ count 0 tau F FL FT (G fuel ltac:(unfold N; lia)) (G (S fuel) ltac:(unfold N; lia))) as H.
      rewrite telescope in H. rewrite EL in H. replace (F o) with 1 in H by (change o with (ds 0%nat); rewrite FD by lia; reflexivity).
      apply H. intros _ s e HE. destruct (PI s e HE) as (j & Hj & -> & ->). exists (f (ds j)).
      split; [apply (HV _ _ (PE j Hj))|]. specialize (POS j Hj). split; [|lra].
      destruct (C j (S j) fuel ltac:(lia) ltac:(lia) ltac:(unfold N; lia)) as [E _]. rewrite E. replace (S j - j)%nat with 1%nat by lia.
      unfold prod_n. cbn [seq map Rprod]. replace (j + 0)%nat with j by lia. f_equal. lra.
  Qed.
  (** together with the repayment of the notional at the end, the leg is worth the notional,
      discounted from its start: at the start it is worth par *)
  Theorem C84_par_floater : forall flr h i j k disc v o dates n count tau oc z l dom lo lo',
    float_leg h i k disc o dates (repeat n (length dates)) count 0 -> floats tm disc count tau v o dates ->
    rc_cls disc = CZeroRate -> rc_origin disc = Some oc -> date_values disc ->
    (forall d, In d (v :: o :: dates) -> has_value disc d (z d)) -> dates <> [] ->
    nth_error (h_lists h) j = Some (mkHL l HNone) -> fixed_new [last dates o] (Many [n]) lo = Ok l ->
    forall fuel, (3 <= fuel)%nat -> exists p,
      get_discount_factor fuel disc v o = Ok p /\ (v = o -> p = 1) /\
      returns (get_present_value fuel flr (PrLegs [i; j] dom lo') k (Some v)) h (n * p).
  Proof.
    intros flr h i j k disc v o dates n count tau oc z l dom lo lo' FL FT K HO DV HV NE Hj HN fuel HF.
    destruct (C84_zero_rate_curve flr h i k disc v o dates n count tau oc z FL FT K HO DV HV fuel HF) as (p & q & E1 & E2 & RT).
    exists p. split; [exact E1|]. pose proof FL as [Hk _]. pose proof FT as (_ & A & _ & HP).
    assert (LV : d_leb v (last dates o) = true).
    { apply (HP (nth (length dates - 1) (o :: dates) o) (last dates o)). exists (length dates - 1)%nat.
      assert (0 < length dates)%nat by (destruct dates; [congruence|cbn; lia]).
      split; [apply nth_error_nth'; cbn [length]; lia|]. rewrite (last_nth dates o). apply nth_error_nth'. lia. }
    split.
    - intros ->. assert (Vo : has_value disc o (z o)) by (apply HV; now left).
      destruct (C21_zero_rate_curve DS tm DC L disc oc tau HO A DV K o o o _ _ _ Vo Vo Vo fuel ltac:(lia)) as (x & y & E & _ & _ & -> & _).
      rewrite E in E1. injection E1 as <-. rewrite <- exp_0. f_equal. lra.
    - apply (C40_legs DS DC fuel flr h [i; j] dom lo' k disc v _ Hk). exists [n * (p - q); n * q].
      split; [|cbn; lra]. constructor; [exact RT|]. constructor; [|constructor].
      assert (ND : NoDup (map tm [last dates o])) by (repeat constructor; intros []).
      pose proof (C40_pairs DS DC tm L fuel flr h j k disc v l [last dates o] [n] lo (fun _ => q) Hk Hj (or_introl HN) ND) as H.
      unfold pairs_value in H. cbn [combine map Rsum fst snd] in H. rewrite LV in H.
      replace (n * q) with (q * n + 0) by lra. apply H. intros d [<-|[]] _. exact E2.
  Qed.
End Float.
Print Assumptions C84_par_floater.
Print Assumptions C84_coupons.
Print Assumptions C84_zero_rate_curve.
Print Assumptions C84_discount_factor_curve.
Print Assumptions C84_cash_rate_curve.

(** * C85: the par rate of a swap *)
Section Swap.
  Context {D P : Type} (DS : DateSys R D P) (tm : D -> R) (DC : DayCounts R D) (L : DateLaws DS tm).
  Implicit Types (h : heap R D P) (disc : rcurve R D P).

  (** list number j pays a fixed rate r on the notional n *)
  Definition fixed_leg h (j : nat) (o : D) (dates : list D) (n : R) (count : dcspec R D) (r : R) : Prop :=
    exists l fixing payo, no_offset fixing /\ no_offset payo /\
      nth_error (h_lists h) j = Some (mkHL l (HForward (fun _ => FwNone))) /\
      ratelist_new dates (Many (repeat n (length dates))) (Some o) count fixing payo r FwNone = Ok l.

  (** the sum of year fraction times discount factor *)
  Definition level (DF : D -> R) (tau : D -> D -> R) (o : D) (dates : list D) : R :=
    Rsum (map (fun se => tau (fst se) (snd se) * DF (snd se)) (combine (o :: dates) dates)).

  Lemma fixed_coupons fuel h j o dates n count r tau v : fixed_leg h j o dates n count r ->
    NoDup (map tm dates) -> dates <> [] ->
    (forall s e, period o dates s e -> pay_count count s e = Ok (tau s e) /\ d_leb v e = true) ->
    coupons fuel h v j (map (fun se => (snd se, (tau (fst se) (snd se) * n, 0))) (combine (o :: dates) dates)) /\
    exists l, nth_error (h_lists h) j = Some l /\ fixed_rate (hl_list l) = Ok (Some r).
  Proof.
    intros (l & fixing & payo & NF & NP & Hj & HN) ND NE HP.
    destruct (C38_periods DS tm L _ _ _ _ _ _ _ _ _ HN ND) as (LEN & DOM & PER).
    destruct (C46_getter DS dates _ (Some o) count fixing payo r FwNone l HN NE) as [RA FR].
    split; [|exists (mkHL l (HForward (fun _ => FwNone))); auto].
    exists (mkHL l (HForward (fun _ => FwNone))), (fun _ => FwNone). split; [exact Hj|]. split; [reflexivity|]. split; [exact RA|].
    assert (CP : combine (o :: dates) dates = periods o dates).
    { clear. revert o. induction dates as [|d ds IH]; intro o; [reflexivity|]. change ((o, d) :: combine (d :: ds) ds = (o, d) :: periods d ds). now rewrite IH. }
    split.
    - unfold due. cbn [hl_list]. rewrite DOM, map_map. cbn [fst]. rewrite CP.
      assert (G : forall j e, nth_error dates j = Some e -> d_leb v e = true).
      { intros m e He. destruct (nth_error (o :: dates) m) as [s|] eqn:Hs; [apply (HP s e); exists m; auto|].
        apply nth_error_None in Hs. assert (m < length dates)%nat by (apply nth_error_Some; congruence). cbn in Hs. lia. }
      transitivity dates; [exact (periods_snd dates o)|]. clear -G. symmetry. induction dates as [|d ds IH]; [reflexivity|]. cbn [filter]. rewrite (G 0%nat d eq_refl).
      f_equal. apply IH. intros m e He. apply (G (S m) e He).
    - intros d alpha fwd I. apply in_map_iff in I. destruct I as [[s e] [E I]]. cbn [fst snd] in E. injection E as <- <- <-.
      rewrite CP in I. destruct (periods_in _ _ _ _ I) as (m & Hs & He).
      assert (Ha : nth_error (repeat n (length dates)) m = Some n) by (apply nth_error_repeat, nth_error_Some; congruence).
      destruct (PER m s e n Hs He Ha) as (s' & e' & M1 & M2 & Q).
      apply moved_offset in M1. apply moved_offset in M2. rewrite (offset_none s payo NP) in M1. rewrite (offset_none e payo NP) in M2.
      injection M1 as <-. injection M2 as <-.
      exists (mkRP s e n count fixing (Some r)), (tau s e), s. cbn [hl_list rp_count rp_start rp_end rp_amount rp_fixing].
      split; [exact Q|]. split; [apply (HP s e); exists m; auto|]. split; [reflexivity|]. split; [|reflexivity].
      apply moved_offset, offset_none. exact NF.
  Qed.

  (** the rate which makes the fixed leg worth the floating leg is
      (df(v, start) - df(v, end)) / level, up to half the precision *)
  Theorem C85_swap_rate : forall fuel flr h i j k disc v o dates n count tau oc z fo fdates fcount ftau r DF,
    float_leg h i k disc o dates (repeat n (length dates)) count 0 -> floats tm disc count tau v o dates ->
    rc_cls disc = CZeroRate -> rc_origin disc = Some oc -> date_values disc ->
    (forall d, In d (v :: o :: dates) -> has_value disc d (z d)) ->
    fixed_leg h j fo fdates n fcount r -> NoDup (map tm fdates) -> fdates <> [] ->
    (forall s e, period fo fdates s e -> pay_count fcount s e = Ok (ftau s e) /\ d_leb v e = true) ->
    (3 <= fuel)%nat -> (forall d, In d (o :: dates ++ fdates) -> get_discount_factor fuel disc v d = Ok (DF d)) ->
    forall target h1 precision a b y h2,
    get_present_value fuel flr (PrList i) k (Some v) h = (Ok target, h1) ->
    get_fair_rate fuel flr (PrList j) k (Some v) target precision a b h1 = (Ok y, h2) ->
    h1 = h /\ h2 = h /\ target = n * (DF o - DF (last dates o)) /\
    (n <> 0 -> level DF ftau fo fdates <> 0 ->
       Rabs (y - (DF o - DF (last dates o)) / level DF ftau fo fdates) < precision / 2).
  Proof.
    intros fuel flr h i j k disc v o dates n count tau oc z fo fdates fcount ftau r DF FL FT K HO DV HV FX ND NE HP HF HD
      target h1 precision a b y h2 PV FR.
    destruct (C84_zero_rate_curve DS tm DC L flr h i k disc v o dates n count tau oc z FL FT K HO DV HV fuel HF) as (p & q & E1 & E2 & RT).
    rewrite (HD o (or_introl eq_refl)) in E1. injection E1 as <-.
    assert (IL : In (last dates o) (o :: dates ++ fdates)).
    { clear. destruct dates as [|d ds]; [now left|]. right. apply in_or_app. left. rewrite (last_nth (d :: ds) o). apply nth_In. cbn. lia. }
    rewrite (HD _ IL) in E2. injection E2 as <-. unfold returns in RT. rewrite RT in PV. injection PV as <- <-.
    destruct (fixed_coupons fuel h j fo fdates n fcount r ftau v FX ND NE HP) as [CO [l [Hl Hr]]].
    set (cs := map (fun se => (snd se, (ftau (fst se) (snd se) * n, 0))) (combine (fo :: fdates) fdates)) in *.
    pose proof FL as [Hk _].
    assert (DFc : forall d, In d (map fst cs) -> get_discount_factor fuel disc v d = Ok (DF d)).
    { intros d Id. apply HD. right. apply in_or_app. right. unfold cs in Id. rewrite map_map in Id. cbn [fst] in Id.
      apply in_map_iff in Id. destruct Id as [[s e] [<- I]]. now apply in_combine_r in I. }
    destruct (C46_fair_rate DS DC fuel flr h j k (Some v) disc v cs DF _ precision a b y h2 l r CO Hk eq_refl DFc Hl Hr FR)
      as (HH & _ & _ & Q).
    split; [reflexivity|]. split; [exact HH|]. split; [reflexivity|]. intros Nn NL.
    assert (AN : annuity DF cs = n * level DF ftau fo fdates).
    { unfold annuity, level, cs. rewrite map_map. cbn [fst snd]. generalize (combine (fo :: fdates) fdates). clear. intro l. induction l as [|x l' IH]; cbn [map Rsum]; [lra|]. rewrite IH. lra. }
    assert (FZ : floating DF cs = 0).
    { unfold floating, cs. rewrite map_map. cbn [fst snd]. generalize (combine (fo :: fdates) fdates). clear. intro l. induction l as [|x l' IH]; cbn [map Rsum]; [lra|]. rewrite IH. lra. }
    rewrite AN, FZ in Q. replace ((DF o - DF (last dates o)) / level DF ftau fo fdates)
      with ((n * (DF o - DF (last dates o)) - 0) / (n * level DF ftau fo fdates)) by now field.
    apply Q. intro Z. apply Rmult_integral in Z. tauto.
  Qed.
End Swap.
Print Assumptions C85_swap_rate.

(** instance of C84 and C85: flat zero rate ln 2, yearly coupons on 100 for two years; the
    floating leg is worth 75, with repayment 100, the par rate is 1 *)
#[local] Instance no_counts {D} : DayCounts R D := [].
Example C84_C85_instance : exists fl rl xl disc,
  rc_new (DS := FloatDates (T:=R)) CZeroRate [0] [ln 2] None None DcDefault (Some (FP 1)) = Ok disc /\
  ratelist_new (DS := FloatDates (T:=R)) [1; 2] (Many [100; 100]) (Some 0) DcDefault None None 0 (FwRate disc) = Ok fl /\
  ratelist_new (DS := FloatDates (T:=R)) [1; 2] (Many [100; 100]) (Some 0) DcDefault None None (5/100) FwNone = Ok rl /\
  fixed_new (DS := FloatDates (T:=R)) [2] (Many [100]) None = Ok xl /\
  let h := mkH [disc] [] [mkHL fl (HForward (fun cs => match cs with c :: _ => FwRate c | [] => FwNone end));
                          mkHL rl (HForward (fun _ => FwNone)); mkHL xl HNone] in
  (forall fuel, (3 <= fuel)%nat -> returns (get_present_value fuel None (PrList 0) 0 (Some 0)) h 75) /\
  (forall fuel, (3 <= fuel)%nat -> returns (get_present_value fuel None (PrLegs [0%nat; 2%nat] [1; 2] None) 0 (Some 0)) h 100) /\
  exists n, forall fuel, (n <= fuel)%nat -> exists y,
    get_fair_rate fuel None (PrList 1) 0 (Some 0) 75 (1/1000) 0 2 h = (Ok y, h) /\ Rabs (y - 1) < 1/2000.
Proof.
  destruct (single_curve (DC := no_counts) (L:=float_laws) DcDefault _ CZeroRate 0 (ln 2) (Some (FP 1)) None 0 (default_additive (L:=float_laws)) eq_refl eq_refl)
      as (disc & ED & (B1 & B2 & B3 & B4 & B5 & B6 & B7 & B8 & B9 & B10) & V).
  destruct (flat_zero (DC := no_counts) (L:=float_laws) 0 (ln 2) (Some (FP 1))) as (disc' & ED' & HO & _ & DF).
  assert (disc' = disc) by congruence. subst disc'. clear ED'.
  assert (ND : NoDup (map (fun d : R => d) [1; 2])) by (repeat constructor; cbn; intuition lra).
  destruct (C38_total FloatDates [1; 2] [100; 100] 0 DcDefault None None 0 (FwRate disc) I) as (T & _ & _).
  destruct (T ltac:(cbn; lia)) as (fl & EF). clear T.
  destruct (C38_total FloatDates [1; 2] [100; 100] 0 DcDefault None None (5/100) FwNone I) as (T & _ & _).
  destruct (T ltac:(cbn; lia)) as (rl & ER). clear T.
  assert (EX : exists xl, fixed_new (DS := FloatDates (T:=R)) [2] (Many [100]) None = Ok xl) by (eexists; reflexivity).
  destruct EX as [xl EX].
  exists fl, rl, xl, disc. split; [exact ED|]. split; [exact EF|]. split; [exact ER|]. split; [exact EX|]. cbv zeta.
  set (h := mkH _ _ _).
  assert (FL : float_leg (DS := FloatDates (T:=R)) h 0 0 disc 0 [1; 2] [100; 100] DcDefault 0).
  { split; [reflexivity|]. exists fl, (fun cs => match cs with c :: _ => FwRate c | [] => FwNone end), None, None.
    split; [exact I|]. split; [exact I|]. split; [reflexivity|]. split; [reflexivity|]. exact EF. }
  assert (PE : forall s e : R, period 0 [1; 2] s e -> (s = 0 /\ e = 1) \/ (s = 1 /\ e = 2)).
  { intros s e [[|[|[|i]]] [H1 H2]]; cbn in H1, H2; try discriminate; injection H1 as <-; injection H2 as <-; lra. }
  assert (PC : forall s e : R, period 0 [1; 2] s e -> pay_count (DS := FloatDates (T:=R)) DcDefault s e = Ok (e - s) /\ d_leb (DateSys := FloatDates (T:=R)) 0 e = true).
  { intros s e H. split; [reflexivity|]. cbn. unfold Rleb. destruct (Rle_dec 0 e); [reflexivity|]. exfalso. destruct (PE s e H); lra. }
  assert (FT : floats (DS := FloatDates (T:=R)) (fun d => d) disc DcDefault (fun s e => e - s) 0 0 [1; 2]).
  { split; [now rewrite B1|]. split; [exact B10|]. split; [exact ND|]. intros s e H. pose proof (PE s e H) as Q. destruct (PC s e H) as [PC1 PC2].
    split; [|split; [|split; [exact PC1|exact PC2]]].
    - unfold rc_tenor. rewrite B7. cbn. f_equal. lra.
    - cbn. apply Reqb_false. lra. }
  assert (D1 : forall fuel, (2 <= fuel)%nat -> get_discount_factor fuel disc 0 0 = Ok 1 /\
      get_discount_factor fuel disc 0 1 = Ok (/ 2) /\ get_discount_factor fuel disc 0 2 = Ok (/ 4)).
  { intros [|[|m]] LE; [lia|lia|]. rewrite !DF. split; [|split]; f_equal.
    - replace (- (ln 2 * (0 - 0))) with 0 by lra. apply exp_0.
    - replace (- (ln 2 * (1 - 0))) with (- ln 2) by lra. rewrite exp_Ropp, exp_ln; lra.
    - replace (- (ln 2 * (2 - 0))) with (- ln 2 + - ln 2) by lra. rewrite exp_plus, exp_Ropp, exp_ln; lra. }
  assert (HV : forall d, In d (0 :: 0 :: [1; 2]) -> has_value disc d ((fun _ => ln 2) d)) by (intros; apply V).
  assert (P75 : forall fuel, (3 <= fuel)%nat -> returns (get_present_value fuel None (PrList 0) 0 (Some 0)) h 75).
  { intros fuel LE. destruct (D1 fuel ltac:(lia)) as (F0 & F1 & F2).
    destruct (C84_zero_rate_curve FloatDates (fun d => d) no_counts float_laws None h 0 0 disc 0 0 [1; 2] 100 DcDefault _ 0 _ FL FT B1 B3 B9 HV fuel LE)
      as (p & q & E1 & E2 & RT). cbn [last] in E2. rewrite F0 in E1. rewrite F2 in E2. injection E1 as <-. injection E2 as <-.
    replace 75 with (100 * (1 - / 4)) by lra. exact RT. }
  split; [exact P75|]. split.
  { intros fuel LE. destruct (D1 fuel ltac:(lia)) as (F0 & F1 & F2).
    destruct (C84_par_floater FloatDates (fun d => d) no_counts float_laws None h 0 2 0 disc 0 0 [1; 2] 100 DcDefault _ 0 _ xl [1; 2] None None
      FL FT B1 B3 B9 HV ltac:(discriminate) eq_refl EX fuel LE) as (p & E1 & Q & RT). rewrite (Q eq_refl) in RT.
    replace 100 with (100 * 1) by lra. exact RT. }
  assert (FX : fixed_leg FloatDates h 1 0 [1; 2] 100 DcDefault (5/100)).
  { exists rl, None, None. split; [exact I|]. split; [exact I|]. split; [reflexivity|exact ER]. }
  set (df := fun d : R => if Req_EM_T d 0 then 1 else if Req_EM_T d 1 then / 2 else / 4).
  assert (df0 : df 0 = 1) by (unfold df; destruct (Req_EM_T 0 0); lra).
  assert (df1 : df 1 = / 2) by (unfold df; destruct (Req_EM_T 1 0); [lra|]; destruct (Req_EM_T 1 1); lra).
  assert (df2 : df 2 = / 4) by (unfold df; destruct (Req_EM_T 2 0); [lra|]; destruct (Req_EM_T 2 1); lra).
  assert (DI : forall fuel, (2 <= fuel)%nat -> forall d, In d (0 :: [1; 2] ++ [1; 2]) -> get_discount_factor fuel disc 0 d = Ok (df d)).
  { intros fuel LE d I. destruct (D1 fuel LE) as (F0 & F1 & F2). cbn in I. destruct I as [<-|[<-|[<-|[<-|[<-|[]]]]]]; congruence. }
  assert (LV : level df (fun s e => e - s) 0 [1; 2] = 3 / 4).
  { unfold level. cbn. rewrite df1, df2. lra. }
  destruct (C46_returns FloatDates no_counts None h 1 0 (Some 0) disc 0 (map (fun se => (snd se, ((snd se - fst se) * 100, 0))) (combine (0 :: [1; 2]) [1; 2]))
     df 75 (1/1000) 0 2 (mkHL rl (HForward (fun _ => FwNone))) (5/100) 2) as (n & HN); auto.
  { intros fuel LE. split.
    - apply (fixed_coupons FloatDates (fun d => d) no_counts float_laws fuel h 1 0 [1; 2] 100 DcDefault (5/100) (fun s e => e - s) 0 FX ND ltac:(discriminate) PC).
    - intros d I. apply (DI fuel LE). cbn in I |- *. tauto. }
  { destruct (C46_getter FloatDates [1; 2] (Many [100; 100]) (Some 0) DcDefault None None (5/100) FwNone rl ER ltac:(discriminate)) as [_ FR]. exact FR. }
  { lra. }
  { unfold annuity, floating. cbn. rewrite df1, df2. lra. }
  exists (n + 3)%nat. intros fuel LE. destruct (HN fuel ltac:(lia)) as (y & Hy). exists y. split; [exact Hy|].
  destruct (C85_swap_rate FloatDates (fun d => d) no_counts float_laws fuel None h 0 1 0 disc 0 0 [1; 2] 100 DcDefault _ 0 _ 0 [1; 2] DcDefault (fun s e => e - s)
    (5/100) df FL FT B1 B3 B9 HV FX ND ltac:(discriminate) PC ltac:(lia) (DI fuel ltac:(lia)) 75 h (1/1000) 0 2 y h (P75 fuel ltac:(lia)) Hy) as (_ & _ & _ & Q).
  rewrite LV in Q. cbn [last] in Q. rewrite df0, df2 in Q. replace 1 with ((1 - / 4) / (3 / 4)) at 1 by lra.
  replace (1 / 2000) with (1 / 1000 / 2) by lra. apply Q; lra.
Qed.
