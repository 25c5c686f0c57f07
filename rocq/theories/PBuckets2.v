(** Property C92 for floating legs: deltas along a curve of forward rates
    (pricer.py:368-578, payoffs.py:107-145, curves/interestratecurve.py:402-441). *)
From Coq Require Import Reals Lra Lia List Bool ZArith.
From Verif Require Import Num Py Spec SInterpolation SCurve SDates SRateCurve SCashflow SPricer LBase MInterpolation MDates MCurve MRateCurve
  MOption MCashflow MBracket MPricer LSort LDates LInterpolation LCurve LCurve2 LDateCurve LRateCurve LRateCurve3 LCashflow LTable LPricer LPricer2
  LPricer3 LCast PCashflow PRateCurve2 PPricer PPricer2 PPricer3 PBuckets PDuration.
Import ListNotations.
Open Scope R_scope.

Lemma forall2_length {A B} (Q : A -> B -> Prop) l m : Forall2 Q l m -> length l = length m.
Proof. induction 1; cbn; congruence. Qed.

Section Floating.
  Context {D P : Type} (DS : DateSys R D P) (tm : D -> R) (DC : DayCounts R D) (L : DateLaws DS tm).
  Implicit Types (h : heap R D P) (disc fwd : rcurve R D P).

  (** the coupon of the period from s to e with notional a: paid at e, fixed at t, with the
      notional times year fraction w; the forward curve has a value at t *)
  Definition coupon fwd (count : dcspec R D) (fixing payo : option P) (p : D * D * R) (q : D * D * R) : Prop :=
    let '(s, e, a) := p in let '(e0, t, w) := q in
    e0 = e /\ exists s' e' u te r, moved_back s payo s' /\ moved_back e payo e' /\ moved_back s' fixing t /\
      pay_count count s' e' = Ok u /\ w = u * a /\ d_add t (rc_tenor fwd) = Ok te /\ rc_call fwd t = Ok r.

  (** list i is a floating leg with margin c and the coupons qs on the curve f of cash rates,
      discounted with another curve k *)
  Record floating h (i k f : nat) disc fwd (v o : D) (dates : list D) (amounts : list R) (count : dcspec R D)
         (fixing payo : option P) (c : R) (DF : D -> R) (qs : list (D * D * R)) (n : nat) : Prop := {
    fl_other : k <> f;
    fl_disc : nth_error (h_curves h) k = Some disc;
    fl_fwd : nth_error (h_curves h) f = Some fwd;
    fl_class : rc_cls fwd = CCashRate;
    fl_plain : rc_spread fwd = None;
    fl_origin : exists og, rc_origin fwd = Some og;
    fl_list : exists l s, nth_error (h_lists h) i = Some (mkHL l (HForward s)) /\
      ratelist_new dates (Many amounts) (Some o) count fixing payo c (FwRate fwd) = Ok l /\
      forall cs fwd', nth_error cs f = Some fwd' -> s cs = FwRate fwd';
    fl_dates : NoDup (map tm dates);
    fl_coupons : Forall2 (coupon fwd count fixing payo) (combine (combine (o :: dates) dates) amounts) qs;
    fl_df : forall e, In e dates -> d_leb v e = true -> get_discount_factor (S n) disc v e = Ok (DF e) }.

  (** discounted notionals times year fractions times [x] at the fixing dates, of the coupons
      paid at v or later *)
  Definition accruals (v : D) (DF : D -> R) (x : D -> R) (qs : list (D * D * R)) : R :=
    Rsum (map (fun q => let '(e, t, w) := q in if d_leb v e then DF e * w * x t else 0) qs).

  Lemma leg_worth n flr v disc l (val : D * D * R -> R) dates qs :
    Forall2 (fun e q => d_leb v e = true -> discounted (S n) flr disc v l e (val q)) dates qs ->
    (forall q, In q qs -> d_leb v (fst (fst q)) = false -> val q = 0) ->
    Forall2 (fun e q => fst (fst q) = e) dates qs ->
    exists xs, Forall2 (discounted (S n) flr disc v l) (filter (fun d => d_leb v d) dates) xs /\ Rsum (map val qs) = Rsum xs.
  Proof.
    intros F Z E. revert Z E. induction F as [|e q ds qs H F IH]; intros Z E.
    - exists []. split; constructor.
    - inversion E; subst. destruct IH as (xs & Fx & Sx); [intros; apply Z; auto; now right|auto|].
      cbn [filter]. destruct (d_leb v (fst (fst q))) eqn:B.
      + exists (val q :: xs). split; [constructor; auto|]. cbn [map Rsum]. lra.
      + exists xs. split; auto. cbn [map Rsum]. rewrite (Z q) by (auto; now left). lra.
  Qed.

  Lemma floating_pv n flr h i k f disc fwd v o dates amounts count fixing payo c DF qs :
    floating h i k f disc fwd v o dates amounts count fixing payo c DF qs n ->
    forall h' fwd' (y : D -> R), h_lists h' = h_lists h -> nth_error (h_curves h') k = Some disc -> nth_error (h_curves h') f = Some fwd' ->
    rc_cls fwd' = CCashRate -> rc_tenor fwd' = rc_tenor fwd ->
    (forall q, In q qs -> rc_call fwd' (snd (fst q)) = Ok (y (snd (fst q)))) ->
    returns (get_present_value (S n) flr (PrList i) k (Some v)) h' (accruals v DF (fun t => c + y t) qs).
  Proof.
    intros [_ _ _ K _ _ (l & s & Hi & HN & HS) ND FQ FD] h' fwd' y HL Hk Hf K' T' V.
    assert (HN' : ratelist_new dates (Many amounts) (Some o) count fixing payo c (FwRate fwd') =
      Ok (mkCF (cf_domain l) (cf_flows l) (cf_origin0 l) (LForward (FwRate fwd')) (cf_rated l))).
    { unfold ratelist_new in *. cbn [start_dates bind] in *. destruct (rate_payoffs _ _ _ _ _ _ _) as [rs|]; [|discriminate]. cbn [bind] in *.
      unfold cf_new in *. destruct (negb _); [discriminate|]. injection HN as <-. reflexivity. }
    set (l' := mkCF (cf_domain l) (cf_flows l) (cf_origin0 l) (LForward (FwRate fwd')) (cf_rated l)) in *.
    destruct (C38_periods DS tm L _ _ _ _ _ _ _ _ _ HN' ND) as (LEN & DOM & _).
    apply (C40_list DS DC (S n) flr h' i k disc v l'); auto.
    { exists (mkHL l (HForward s)), (LForward (FwRate fwd')). split; [now rewrite HL|]. split; [reflexivity|]. cbn. now rewrite (HS _ _ Hf). }
    unfold worth, due. rewrite DOM. unfold accruals.
    destruct (leg_worth n flr v disc l' (fun q => let '(e, t, w) := q in if d_leb v e then DF e * w * (c + y t) else 0) dates qs)
      as (xs & F & E); auto; [| | |eauto].
    - assert (W : forall j a b m q, nth_error (o :: dates) j = Some a -> nth_error dates j = Some b -> nth_error amounts j = Some m ->
        coupon fwd count fixing payo (a, b, m) q -> In q qs ->
        (d_leb v b = true -> discounted (S n) flr disc v l' b ((let '(e, t, w) := q in if d_leb v e then DF e * w * (c + y t) else 0)))).
      { intros j a b m [[e t] w] Ha Hb Hm (-> & s' & e' & u & te & r & M1 & M2 & M3 & M4 & -> & M5 & _) Iq B. rewrite B.
        exists (DF b), ((c + y t) * u * m). split; [apply FD; auto; eapply nth_error_In; eauto|]. split; [|lra].
        apply (C38_flow DS DC tm L (S n) flr _ _ _ _ _ _ _ _ _ HN' ND j a b m s' e' t _ u); auto; [|apply eqb_refl].
        cbn [forward_at]. rewrite K'. cbn [is_interest].
        destruct (C24_cash_rate_curve DS tm DC L fwd' t te (y t) n K') as [Q _]; [now rewrite T'| |exact Q].
        exact (V _ Iq). }
      clear -W FQ LEN. revert o amounts qs W LEN FQ. induction dates as [|d ds IH]; intros o am qs W LEN FQ.
      + inversion FQ. constructor.
      + destruct am as [|m am]; [cbn in LEN; lia|]. cbn [combine] in FQ. inversion FQ; subst. constructor.
        * apply (W 0%nat o d m); auto. now left.
        * apply (IH d am); [|cbn in LEN; lia|auto]. intros j a b m' q Ha Hb Hm Cq Iq. apply (W (S j) a b m'); auto. now right.
    - intros [[e t] w] _. cbn [fst]. now intros ->.
    - clear -FQ LEN. revert o amounts qs LEN FQ. induction dates as [|d ds IH]; intros o am qs LEN FQ.
      + inversion FQ. constructor.
      + destruct am as [|m am]; [cbn in LEN; lia|]. cbn [combine] in FQ. inversion FQ as [|? q ? ? Cq]; subst. constructor.
        * destruct q as [[e t] w]. cbn. now destruct Cq.
        * apply (IH d am); [cbn in LEN; lia|auto].
  Qed.

  (** * C92: the basis point value of a floating leg along its forward curve is the sum of
      its discounted accruals, whatever the shift; each bucketed delta is the part of it
      fixed at the hat function of its grid date, for any grid; so they add up *)
  Theorem C92_floating : forall n flr h i k f disc fwd v o dates amounts count fixing payo c DF qs grid shift,
    floating h i k f disc fwd v o dates amounts count fixing payo c DF qs n ->
    grid <> [] -> increasing (map tm grid) -> shift <> 0 ->
    returns (get_basis_point_value (S n) flr (PrList i) k (Some v) (Some [f]) shift) h (accruals v DF (fun _ => 1) qs / 10000) /\
    exists hats : list (D -> R), length hats = length grid /\
      (forall j d b, nth_error hats j = Some b -> piecewise_linear (combine (map tm grid) (spike shift (length grid) j)) (tm d) (shift * b d)) /\
      returns (get_bucketed_delta (S n) flr (PrList i) k (Some v) (Some [f]) (Some grid) shift) h
        (map (fun b => accruals v DF b qs / 10000) hats) /\
      Rsum (map (fun b => accruals v DF b qs / 10000) hats) = accruals v DF (fun _ => 1) qs / 10000.
  Proof.
    intros n flr h i k f disc fwd v o dates amounts count fixing payo c DF qs grid shift FL NE INC NZ.
    pose proof FL as [OT Hk Hf K SP (og & HO) _ _ FQ _].
    assert (PC : plain_curves h (deltas k (Some [f]))).
    { split; [repeat constructor; intros []|]. intros j [<-|[]]. eauto. }
    destruct (C48_value DS DC tm L (S n) flr (PrList i) k (Some v) (Some [f]) shift h PC NZ) as (h1 & SB1 & BPV).
    destruct (C49_buckets DS DC tm L (S n) flr (PrList i) k (Some v) (Some [f]) grid shift h PC NZ NE INC) as (bs & hs & LB & NB & PB & SB & FB & DEL); [eauto|].
    set (r := fun t => value_of (rc_call fwd t)).
    assert (HV : forall q, In q qs -> rc_call fwd (snd (fst q)) = Ok (r (snd (fst q)))).
    { intros q Iq. apply value_of_ok. clear -FQ Iq. induction FQ as [|[[? ?] ?] q' ? ? Cq _ IH]; [destruct Iq|]. destruct Iq as [->|Iq]; [|auto].
      destruct q as [[e t] w]. destruct Cq as (_ & s' & e' & u & te & r1 & M). exists r1. cbn. apply M. }
    assert (PV0 : returns (get_present_value (S n) flr (PrList i) k (Some v)) h (accruals v DF (fun t => c + r t) qs))
      by (apply (floating_pv n flr h i k f disc fwd v o dates amounts count fixing payo c DF qs FL h fwd r); auto).
    assert (PV1 : forall b h', shifted_by h [f] b h' ->
      returns (get_present_value (S n) flr (PrList i) k (Some v)) h' (accruals v DF (fun t => c + (r t + b t)) qs)).
    { intros b h' (HM & HL & HO' & HC). destruct (HC f fwd (or_introl eq_refl) Hf) as (s & Es & _ & Vs).
      apply (floating_pv n flr h i k f disc fwd v o dates amounts count fixing payo c DF qs FL h' _ (fun t => r t + b t) HL
        ltac:(rewrite HO'; [exact Hk|intros [Q|[]]; congruence]) Es K eq_refl).
      intros q Iq. apply Vs. auto. }
    assert (DIF : forall b, (accruals v DF (fun t => c + (r t + b t)) qs - accruals v DF (fun t => c + r t) qs) / shift * (1 / 10000) =
                            accruals v DF (fun t => b t / shift) qs / 10000).
    { intro b. unfold accruals. rewrite Rsum_diff.
      rewrite (Rsum_ext _ (fun q => (let '(e, t, w) := q in if d_leb v e then DF e * w * (b t / shift) else 0) * shift)).
      - rewrite Rsum_factor. field. auto.
      - intros [[e t] w] _. destruct (d_leb v e); [field; auto|lra]. }
    split.
    - apply BPV. eexists. eexists. split; [exact PV0|]. split; [apply (PV1 _ _ SB1)|]. rewrite DIF. f_equal. unfold accruals. apply Rsum_ext.
      intros [[e t] w] _. destruct (d_leb v e); [field; auto|lra].
    - exists (map (fun (b : D -> R) (t : D) => b t / shift) bs). split; [now rewrite map_length|]. split; [|split].
      + intros j d b Hb. rewrite nth_error_map in Hb. destruct (nth_error bs j) as [b0|] eqn:E; [|discriminate]. injection Hb as <-.
        replace (shift * (b0 d / shift)) with (b0 d) by (field; auto). now apply PB.
      + apply DEL. exists (accruals v DF (fun t => c + r t) qs), (map (fun b => accruals v DF (fun t => c + (r t + b t)) qs) bs). split; [exact PV0|]. split.
        * clear -FB PV1. change (deltas k (Some [f])) with [f] in FB. induction FB as [|b h' bs hs S F IH]; cbn [map]; constructor; auto.
        * rewrite !map_map. apply map_ext. intro b. symmetry. apply DIF.
      + rewrite map_map. rewrite (map_ext _ (fun b => accruals v DF (fun t => b t / shift) qs * / 10000)) by (intro; lra).
        rewrite Rsum_factor. unfold Rdiv at 2. f_equal. unfold accruals. rewrite Rsum_swap. apply Rsum_ext. intros [[e t] w] _.
        destruct (d_leb v e); [|apply Rsum_zero; auto].
        rewrite (Rsum_ext _ (fun b => b t * (DF e * w / shift))) by (intros; field; auto). rewrite (Rsum_factor (fun b : D -> R => b t)), SB. field. auto.
  Qed.
End Floating.
Print Assumptions C92_floating.

(** * Leg lists *)
Section Legs.
  Context {D P : Type} (DS : DateSys R D P) (tm : D -> R) (DC : DayCounts R D) (L : DateLaws DS tm).
  Implicit Types (h : heap R D P) (disc : rcurve R D P).

  (** the bucketed deltas of a leg list are the sums of those of its legs *)
  Theorem C92_legs : forall fuel flr h legs dom lo k v delta grid shift disc xss,
    plain_curves h (deltas k delta) -> shift <> 0 -> nth_error (h_curves h) k = Some disc ->
    grid <> [] -> increasing (map tm grid) ->
    Forall2 (fun i xs => returns (get_bucketed_delta fuel flr (PrList i) k (Some v) delta (Some grid) shift) h xs) legs xss ->
    exists xs, returns (get_bucketed_delta fuel flr (PrLegs legs dom lo) k (Some v) delta (Some grid) shift) h xs /\
      length xs = length grid /\ (forall j, nth j xs 0 = Rsum (map (fun l => nth j l 0) xss)) /\
      Rsum xs = Rsum (map Rsum xss).
  Proof.
    intros fuel flr h legs dom lo k v delta grid shift disc xss PC NZ Hk NE INC F.
    destruct (buckets_uniform DS DC tm L k delta grid shift h PC NZ NE INC) as (bs & hs & LB & _ & _ & _ & SB & Q); [eauto|].
    assert (LH : length hs = length grid) by (rewrite <- LB; symmetry; eapply forall2_length; exact SB).
    assert (HD : Forall (fun h1 => exists disc1, nth_error (h_curves h1) k = Some disc1) hs).
    { clear -SB Hk. induction SB as [|b h1 bs hs (_ & _ & N & S) SB IH]; constructor; auto.
      destruct (in_dec Nat.eq_dec k (deltas k delta)) as [I|NI].
      - destruct (S k disc I Hk) as (s & E & _). eauto.
      - rewrite (N k NI). eauto. }
    set (u := fun p0 p1 : R => (p1 - p0) / shift * (1 / 10000)).
    assert (G : exists P0 Ps, (exists ys, Forall2 (fun i y => returns (get_present_value fuel flr (PrList i) k (Some v)) h y) legs ys /\ P0 = Rsum ys) /\
      Forall2 (fun h1 p => exists ys, Forall2 (fun i y => returns (get_present_value fuel flr (PrList i) k (Some v)) h1 y) legs ys /\ p = Rsum ys) hs Ps /\
      (forall j, nth j (map (u P0) Ps) 0 = Rsum (map (fun l => nth j l 0) xss)) /\ Rsum (map (u P0) Ps) = Rsum (map Rsum xss)).
    { clear -F Q NZ. induction F as [|i xs legs xss H0 F (P0 & Ps & (ys & F1 & E1) & F2 & E2 & E3)].
      - exists 0, (map (fun _ => 0) hs). split; [exists []; split; [constructor|reflexivity]|]. split; [|split].
        + clear. induction hs; constructor; auto. exists []. split; [constructor|reflexivity].
        + intro j. cbn [map Rsum]. rewrite map_map. assert (Z : u 0 0 = 0) by (unfold u; field; auto). rewrite Z. clear.
          revert j. induction hs as [|a hs IH]; intros [|j]; cbn; auto.
        + cbn [map Rsum]. rewrite map_map. apply Rsum_zero. intros; unfold u; field; auto.
      - apply Q in H0. destruct H0 as (p0 & ps & R0 & R1 & ->). fold (u p0).
        exists (p0 + P0), (map (fun ab => fst ab + snd ab) (combine ps Ps)).
        assert (US : forall a b, u (p0 + P0) (a + b) = u p0 a + u P0 b) by (intros; unfold u; field; auto).
        split; [|split; [|split]].
        + exists (p0 :: ys). split; [constructor; auto|]. cbn [Rsum]. lra.
        + clear -R1 F2. revert ps R1. induction F2 as [|h1 p hs Ps (zs & FZ & ->) F2 IH]; intros ps R1; inversion R1; subst; cbn [combine map]; constructor; auto.
          exists (y :: zs). split; [constructor; auto|]. cbn [Rsum fst snd]. reflexivity.
        + intro j. cbn [map Rsum]. rewrite <- E2. clear -US R1 F2.
          revert j ps R1. induction F2 as [|h1 p hs Ps _ F2 IH]; intros j ps R1; inversion R1; subst; cbn [combine map]; [destruct j; cbn; lra|].
          destruct j as [|j]; cbn [nth fst snd]; [apply US|]. apply IH; auto.
        + cbn [map Rsum]. rewrite <- E3. clear -US R1 F2.
          revert ps R1. induction F2 as [|h1 p hs Ps _ F2 IH]; intros ps R1; inversion R1; subst; cbn [combine map Rsum]; [lra|].
          rewrite IH by auto. cbn [fst snd]. rewrite US. lra. }
    destruct G as (P0 & Ps & (ys & F1 & ->) & F2 & E2 & E3).
    exists (map (u (Rsum ys)) Ps). split; [|split; [|auto]].
    - apply Q. exists (Rsum ys), Ps. split; [apply (C40_legs DS DC fuel flr h legs dom lo k disc v _ Hk); eauto|]. split; [|reflexivity].
      clear -F2 HD. induction F2 as [|h1 p hs Ps (zs & FZ & ->) F2 IH]; constructor; [|apply IH; now inversion HD].
      inversion HD as [|? ? (disc1 & Hd) _]; subst. apply (C40_legs DS DC fuel flr h1 legs dom lo k disc1 v _ Hd). eauto.
    - rewrite map_length. rewrite <- LH. symmetry. eapply forall2_length; exact F2.
  Qed.

  (** if the deltas of every leg add up to its basis point value, so do those of the leg list *)
  Theorem C92_legs_sum : forall fuel flr h legs dom lo k v delta grid shift disc xss bpvs,
    plain_curves h (deltas k delta) -> shift <> 0 -> nth_error (h_curves h) k = Some disc ->
    grid <> [] -> increasing (map tm grid) ->
    Forall2 (fun i xs => returns (get_bucketed_delta fuel flr (PrList i) k (Some v) delta (Some grid) shift) h xs) legs xss ->
    Forall2 (fun i x => returns (get_basis_point_value fuel flr (PrList i) k (Some v) delta shift) h x) legs bpvs ->
    Forall2 (fun xs x => Rsum xs = x) xss bpvs ->
    exists xs, returns (get_bucketed_delta fuel flr (PrLegs legs dom lo) k (Some v) delta (Some grid) shift) h xs /\
      returns (get_basis_point_value fuel flr (PrLegs legs dom lo) k (Some v) delta shift) h (Rsum xs).
  Proof.
    intros fuel flr h legs dom lo k v delta grid shift disc xss bpvs PC NZ Hk NE INC F1 F2 F3.
    destruct (C92_legs fuel flr h legs dom lo k v delta grid shift disc xss PC NZ Hk NE INC F1) as (xs & R1 & _ & _ & S).
    exists xs. split; [exact R1|]. apply (C95_legs DS tm DC L fuel flr h legs dom lo k v delta shift disc _ PC NZ Hk).
    exists bpvs. split; [exact F2|]. rewrite S. clear -F3. induction F3 as [|xs x xss bpvs E F IH]; [reflexivity|]. cbn [map Rsum]. lra.
  Qed.
End Legs.
Print Assumptions C92_legs.
Print Assumptions C92_legs_sum.


(** legs with two yearly coupons on a curve of yearly cash rates *)
#[local] Instance no_registry5 {D} : DayCounts R D := [].
Section Instance.
  Definition second_curve (cs : list (rcurve R R (fperiod R))) : fsource R R (fperiod R) :=
    match nth_error cs 1 with Some c => FwRate c | None => FwNone end.

  Lemma two_coupons : exists (disc fwd : rcurve R R (fperiod R)) DF,
    rc_new CZeroRate [0; 2] [1/100; 3/100] None None DcDefault None = Ok disc /\
    rc_new CCashRate [0; 1] [2/100; 4/100] None None DcDefault (Some (FP 1)) = Ok fwd /\
    forall a c lists i l, ratelist_new [1; 2] (Many [a; a]) (Some 0) DcDefault None None c (FwRate fwd) = Ok l ->
      nth_error lists i = Some (mkHL l (HForward second_curve)) ->
      floating FloatDates (fun x => x) no_registry5 (mkH [disc; fwd] [] lists)
        i 0 1 disc fwd 0 0 [1; 2] [a; a] DcDefault None None c DF [(1, 0, a); (2, 1, a)] 3.
  Proof.
    assert (N : NoDup [0; 2]) by (repeat constructor; simpl; intuition lra).
    assert (N1 : NoDup [0; 1]) by (repeat constructor; simpl; intuition lra).
    pose proof (default_additive (L:=float_laws) (DC:=no_registry5)) as A.
    destruct (rc_new_linear (L:=float_laws) DcDefault _ A CZeroRate [0; 2] [1/100; 3/100] None 0 None) as [disc [E [B [V V']]]]; auto; try reflexivity; try discriminate.
    destruct (rc_new_linear (L:=float_laws) DcDefault _ A CCashRate [0; 1] [2/100; 4/100] None 0 (Some (FP 1))) as [fwd [E1 [B1 [V1 V1']]]]; auto; try reflexivity; try discriminate.
    destruct B as [B_1 [B_2 [B_3 [B_4 [B_5 [B_6 [B_7 [B_8 [B_9 B_10]]]]]]]]].
    destruct B1 as [C_1 [C_2 [C_3 [C_4 [C_5 [C_6 [C_7 [C_8 [C_9 C_10]]]]]]]]].
    set (z := fun d => value_of (rc_call disc d)).
    assert (Hz : forall d, rc_call disc d = Ok (z d)).
    { intro d. apply value_of_ok. destruct (V' d) as [y [Ey _]]. exists y. exact Ey. }
    exists disc, fwd, (fun d => exp (- (z d * (d - 0) - z 0 * (0 - 0)))). split; [exact E|]. split; [exact E1|].
    intros a c lists i l El Hi. constructor; auto.
    - eauto.
    - exists l. eexists. split; [exact Hi|]. split; [exact El|]. intros cs fwd' H. unfold second_curve. now rewrite H.
    - simpl. repeat constructor; simpl; intuition lra.
    - assert (PCN : forall x, pay_count (DS:=FloatDates) (DcDefault (T:=R)) x (x + 1) = Ok 1).
      { intro x. change (Ok (x + 1 - x) = Ok 1). f_equal. lra. }
      constructor; [|constructor; [|constructor]].
      + split; [reflexivity|]. exists 0, 1, 1, (0 + 1), (2/100). repeat (split; [reflexivity|]).
        split; [rewrite <- (PCN 0); do 2 f_equal; lra|]. split; [lra|]. split; [unfold rc_tenor; rewrite C_7; reflexivity|]. apply V1. simpl. auto.
      + split; [reflexivity|]. exists 1, 2, 1, (1 + 1), (4/100). repeat (split; [reflexivity|]).
        split; [rewrite <- (PCN 1); do 2 f_equal; lra|]. split; [lra|]. split; [unfold rc_tenor; rewrite C_7; reflexivity|]. apply V1. simpl. auto.
    - intros e _ _. unfold get_discount_factor, interest_only. rewrite B_1. cbn [is_interest].
      apply (flat_factor (L:=float_laws) disc 0 _ B_3 B_10 2 0 e); [rewrite B_1; now left|exact B_9|apply Hz|apply Hz].
  Qed.

  (** one leg with notional 100, and the leg list which pays another one with notional 40 and a
      margin; grid 1/2, 3 *)
  Example C92_floating_instance : exists (disc fwd : rcurve R R (fperiod R)) l l' xss bpvs,
    ratelist_new [1; 2] (Many [100; 100]) (Some 0) DcDefault None None 0 (FwRate fwd) = Ok l /\
    ratelist_new [1; 2] (Many [-40; -40]) (Some 0) DcDefault None None (1/1000) (FwRate fwd) = Ok l' /\
    let h := mkH [disc; fwd] [] [mkHL l (HForward second_curve); mkHL l' (HForward second_curve)] in
    (exists DF, floating FloatDates (fun x => x) no_registry5 h 0 0 1 disc fwd 0 0 [1; 2] [100; 100] DcDefault None None 0 DF [(1, 0, 100); (2, 1, 100)] 3) /\
    increasing [1/2; 3] /\ plain_curves h (deltas 0 (Some [1%nat])) /\ nth_error (h_curves h) 0 = Some disc /\
    Forall2 (fun i xs => returns (get_bucketed_delta 4 None (PrList i) 0 (Some 0) (Some [1%nat]) (Some [1/2; 3]) (1/10000)) h xs) [0%nat; 1%nat] xss /\
    Forall2 (fun i x => returns (get_basis_point_value 4 None (PrList i) 0 (Some 0) (Some [1%nat]) (1/10000)) h x) [0%nat; 1%nat] bpvs /\
    Forall2 (fun xs x => Rsum xs = x) xss bpvs.
  Proof.
    destruct two_coupons as (disc & fwd & DF & E & E1 & TC).
    assert (exists l, ratelist_new (DS:=FloatDates) [1; 2] (Many [100; 100]) (Some 0) DcDefault None None 0 (FwRate fwd) = Ok l) as [l El] by (eexists; reflexivity).
    assert (exists l, ratelist_new (DS:=FloatDates) [1; 2] (Many [-40; -40]) (Some 0) DcDefault None None (1/1000) (FwRate fwd) = Ok l) as [l' El'] by (eexists; reflexivity).
    set (h := mkH [disc; fwd] [] [mkHL l (HForward second_curve); mkHL l' (HForward second_curve)]).
    pose proof (TC 100 0 (h_lists h) 0%nat l El eq_refl) as F0. pose proof (TC (-40) (1/1000) (h_lists h) 1%nat l' El' eq_refl) as F1.
    assert (INC : increasing (map (fun x : R => x) [1/2; 3])) by (repeat constructor; lra).
    destruct (C92_floating FloatDates (fun x => x) no_registry5 float_laws _ None _ _ _ _ _ _ _ _ _ _ _ _ _ _ _ _ [1/2; 3] (1/10000) F0 ltac:(discriminate) INC ltac:(lra)) as (R0 & hats0 & _ & _ & Q0 & S0).
    destruct (C92_floating FloatDates (fun x => x) no_registry5 float_laws _ None _ _ _ _ _ _ _ _ _ _ _ _ _ _ _ _ [1/2; 3] (1/10000) F1 ltac:(discriminate) INC ltac:(lra)) as (R1 & hats1 & _ & _ & Q1 & S1).
    exists disc, fwd, l, l'. eexists. eexists. split; [exact El|]. split; [exact El'|]. cbv zeta. fold h.
    split; [exists DF; exact F0|]. split; [repeat constructor; lra|].
    split. { split; [repeat constructor; intros []|]. intros j [<-|[]]. destruct F0 as [_ _ Hf _ SP (og & HO) _ _ _ _]. exists fwd, og. auto. }
    split; [reflexivity|]. split; [constructor; [exact Q0|constructor; [exact Q1|constructor]]|].
    split; [constructor; [exact R0|constructor; [exact R1|constructor]]|]. constructor; [exact S0|constructor; [exact S1|constructor]].
  Qed.
End Instance.
