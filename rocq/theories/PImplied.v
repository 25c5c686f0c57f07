(** Property C117: implied volatility, the second documented use of get_curve_fit
    (pricer.py:581-719, models/optionpricing.py:193-275, payoffs.py:185-245). *)
From Coq Require Import Reals Lra Lia List Bool ZArith.
From Verif Require Import Num Py Spec SInterpolation SCurve SDates SRateCurve SOption SNormal SCashflow SPricer SBracket SFit LBase MInterpolation MDates
  MCurve MRateCurve MOption MCashflow MBracket MPricer LSort LDates LInterpolation LCurve LCurve2 LDateCurve LRateCurve LRateCurve3 LMore LOption LCashflow
  LTable LLip LPricer LPricer2 LPricer3 LCast LFit PRateCurve2 PPricer PBuckets PFit POption PNormal PExpect PStrikes.
Import ListNotations.
Open Scope R_scope.

Definition option_payoff (put : bool) (K x : R) : R := if put then put_payoff K x else call_payoff K x.

Section Implied.
  Context {D P : Type} (DS : DateSys R D P) (tm : D -> R) (DC : DayCounts R D) (L : DateLaws DS tm).
  Implicit Types (h : heap R D P) (c : rcurve R D P).

  (** list k consists of the option with notional A and strike K expiring and paid at e, its
      model reads the volatility from curve i, and sees forward F and time to expiry t;
      discounting is done with another curve *)
  Record quoted (fuel : nat) h (k i disc : nat) c (today e : D) (put : bool) (A K : R) (fm : formula R) (F t df : R) : Prop := {
    qt_disc : disc <> i /\ exists dc, nth_error (h_curves h) disc = Some dc /\ get_discount_factor fuel dc today e = Ok df;
    qt_vol : nth_error (h_curves h) i = Some c;
    qt_list : exists l j m pm, nth_error (h_lists h) k = Some (mkHL l (HModel j)) /\
      optionlist_new [e] (One A) (One (Some K)) (One put) None None (Some today) pm = Ok l /\
      nth_error (h_models h) j = Some m /\
      forall c', let om := hm_model m (set_nth i c' (h_curves h)) in
        om_formula om = fm /\ om_vol om = VoRate c' /\ fw_value fuel (om_forward om) e = Ok (Some F) /\
        match om_count om with None => True | Some f => f today e = Ok t end;
    qt_time : rc_yf c today e = Ok t;
    qt_due : d_leb today e = true;
    qt_market : PStrikes.priced fm F K 1 t }.

  (** the value of the option as function of the volatility *)
  Definition value_at (fm : formula R) (put : bool) (t K F w : R) : R :=
    let q := if Req_EM_T w 0 then Rmax (F - K) 0 else value_of (call_price fm t K F w) in
    if put then (if Req_EM_T w 0 then Rmax (K - F) 0 else K - F + q) else q.

  Lemma price_total fm F K t w : PStrikes.priced fm F K 1 t -> w <> 0 -> exists p, call_price fm t K F w = Ok p.
  Proof.
    intros (_ & Ht & OK) Hw. destruct fm; try contradiction; cbn [call_price].
    - rewrite normal_price_ok by auto. eauto.
    - rewrite black_price_ok; auto; try lra; [eauto|]. apply Rdiv_lt_0_compat; lra.
    - rn. rewrite black_price_ok; auto; try lra; [eauto|]. apply Rdiv_lt_0_compat; lra.
  Qed.

  Lemma quoted_pv fuel flr h k i disc c today e put A K fm F t df :
    quoted fuel h k i disc c today e put A K fm F t df ->
    forall c' w, rc_cls c' = CTermVol -> rc_yf c' = rc_yf c -> rc_call c' e = Ok w -> (0 < fuel)%nat ->
    let h' := mkH (set_nth i c' (h_curves h)) (h_models h) (h_lists h) in
    returns (get_present_value fuel flr (PrList k) disc (Some today)) h' (df * (A * value_at fm put t K F w)) /\
    (0 < w -> exists ex, expectation (fun z => option_payoff put K (forward_at fm F w t z)) ex /\
       Rabs (value_at fm put t K F w - ex) <= tolerance fm F K w t).
  Proof.
    intros [(DI & dc & HD & DF) HV (l & j & m & pm & HL & HN & HM & OM) YF DUE MK] c' w KC YC VC FU h'.
    specialize (OM c'). cbn zeta in OM. destruct OM as (O1 & O2 & O3 & O4).
    set (mv := model_view h' (mkHM (Some today) (hm_model m))).
    assert (MV : market fuel flr mv e (Some K) F K w t).
    { exists (Some w). split; [|now left]. unfold om_details. unfold mv, model_view. cbn [hm_model hm_valuation om_forward om_vol h_curves]. cbn [h_curves h'].
      rewrite O3. cbn [bind]. rewrite O2. cbn [vo_value]. rewrite KC. cbn [is_vol].
      destruct fuel as [|n]; [lia|]. cbn [terminal_vol]. rewrite KC, VC. cbn [rmap bind].
      unfold om_time. cbn [om_count om_valuation om_vol om_forward vo_count].
      destruct (om_count _) as [f|]; [rewrite O4|rewrite YC, YF]; reflexivity. }
    assert (FM : om_formula mv = fm) by exact O1.
    pose proof MK as (_ & Ht & OK).
    assert (VAL : (if put then get_put_value fuel flr mv e (Some K) else get_call_value fuel flr mv e (Some K)) = Ok (value_at fm put t K F w)).
    { unfold value_at. destruct (Req_EM_T w 0) as [Z|NZ].
      - destruct (C53_no_time_value DS DC fuel flr mv e (Some K) F K w t MV (or_introl Z)) as [-> ->]. now destruct put.
      - destruct (value_live _ _ _ _ _ _ _ _ _ MV NZ) as [E1 E2]; [lra|]. rewrite E1, E2, FM.
        destruct (price_total fm F K t w MK NZ) as [p ->]. cbn [bind value_of]. now destruct put. }
    split.
    - apply (C40_list DS DC fuel flr h' k disc dc today (mkCF (cf_domain l) (cf_flows l) (cf_origin0 l) (LModel (PmModel mv)) (cf_rated l))).
      { cbn [h' h_curves]. rewrite set_nth_other; auto. }
      { exists (mkHL l (HModel j)), (LModel (PmModel mv)). split; [exact HL|]. split; [reflexivity|]. exists m. split; [exact HM|reflexivity]. }
      unfold optionlist_new in HN. cbn in HN. injection HN as <-.
      exists [df * (A * value_at fm put t K F w)]. split; [|cbn; lra]. unfold due. cbn [cf_domain filter]. rewrite DUE.
      constructor; [|constructor]. exists df, (A * value_at fm put t K F w). split; [exact DF|]. split; [|reflexivity].
      unfold cf_get, cf_flow. cbn. rewrite (eqb_refl (tm:=tm)). cbn. rewrite VAL. reflexivity.
    - intros W. assert (PR : PStrikes.priced (om_formula mv) F K w t) by (rewrite FM; split; [exact W|split; [exact Ht|exact OK]]).
      destruct (priced_value DS DC fuel flr mv e (Some K) F K w t MV PR) as (cv & p & ec & ep & A1 & A2 & X & Y & E1 & E2). rewrite FM in *.
      destruct put.
      + exists ep. split; [exact Y|]. replace (value_at fm true t K F w) with p by congruence. exact E2.
      + exists ec. split; [exact X|]. replace (value_at fm false t K F w) with cv by congruence. exact E1.
  Qed.

  (** assigning a value keeps the day count *)
  Lemma setitem_count c e w c' : rc_setitem c e w = Ok c' -> rc_yf c' = rc_yf c.
  Proof.
    unfold rc_setitem, dc_setitem_with. destruct (mapM _ _) as [ys|]; [|discriminate]. cbn [bind]. intros H.
    assert (G : forall ds zs, (d <- dc_update (rc_dc c) ds zs ;; Ok (mkR (rc_cls c) d (rc_tenor0 c) (rc_spread c))) = Ok c' -> rc_yf c' = rc_yf c).
    { intros ds zs. unfold dc_update. intros E. destruct (mapM (dc_time (rc_dc c)) ds) as [ts|]; cbn [bind] in E; [|discriminate].
      destruct (update_fn _ ts zs) as [q|]; cbn [bind] in E; [|discriminate]. injection E as <-. reflexivity. }
    destruct (index_of _ _ _); eauto.
  Qed.

  Section Curve.
    Variables (tau : D -> D -> R) (c : rcurve R D P) (dom : list D) (ys : list R) (orig : option D) (count : dcspec R D).
    Hypothesis HC : rc_new CTermVol dom ys None orig count None = Ok c.
    Hypothesis LY : length ys = length dom.
    Hypothesis ND : NoDup (map tm dom).
    Hypothesis NE : dom <> [].
    Hypothesis AD : additive (dc_apply count) tau.
    Hypothesis KW : dc_kwarg count = count.

    Lemma vol_form : exists o, dom_origin orig dom = Some o /\ rc_cls c = CTermVol /\ rc_domain c = dom /\ dc_origin0 (rc_dc c) = orig /\
      dc_count (rc_dc c) = count /\ rc_tenor0 c = None /\ rc_spread c = None /\ mapM (rc_call c) dom = Ok ys.
    Proof.
      assert (exists o, dom_origin orig dom = Some o) as (o & HO).
      { unfold dom_origin. destruct orig; eauto. destruct dom; [congruence|]. cbn. eauto. }
      destruct (rc_new_linear (L:=L) count tau AD CTermVol dom ys orig o None eq_refl (eq_sym LY) ND NE HO) as (c1 & E1 & B1 & V1 & _).
      rewrite HC in E1. injection E1 as <-. destruct B1 as (B1 & B2 & B3 & B4 & B5 & B6 & B7 & B8 & _).
      exists o. repeat (split; [assumption|]). clear -V1 LY. revert ys LY V1. induction dom as [|d ds IH]; intros [|z zs] LY V1; try discriminate; auto. cbn [mapM].
      rewrite (V1 d z) by now left. cbn [bind]. rewrite (IH zs); auto. intros d' z' I. apply V1. now right.
    Qed.
    Lemma vol_fit : additive (dc_apply (dc_kwarg (dc_count (rc_dc c)))) tau /\ plain_cls (rc_cls c) /\ rc_spread c = None.
    Proof. destruct vol_form as (o & _ & B1 & _ & _ & B6 & _ & B8 & _). rewrite B6, KW, B1. repeat (split; auto). Qed.
    Lemma vol_set e w : exists c', rc_setitem c e w = Ok c' /\ rc_cls c' = CTermVol /\ rc_call c' e = Ok w.
    Proof.
      destruct vol_form as (o & HO & B1 & B2 & B5 & B6 & B7 & B8 & VS).
      destruct c as [kc dcc tc sp]. cbn in B1, B7, B8. subst kc tc sp.
      assert (ST : dstate (tm:=tm) count tau (cls_interp CTermVol) None orig o dom ys dcc).
      { apply (dstate_iff (L:=L) count tau AD); auto. unfold rc_new, prepare_data in HC. cbn [is_probability bind] in HC.
        destruct (dc_new _ _ _ _ _ _) as [d|]; [|discriminate]. cbn [bind] in HC. injection HC as ->. reflexivity. }
      destruct (rc_setitem_values (L:=L) count tau AD CTermVol dom ys ys orig o None dcc None e w ST VS) as (d' & S1 & _ & S3).
      { intros [?|?]; discriminate. } { unfold prob_cls. cbn. intuition discriminate. }
      eexists. split; [exact S1|]. split; [reflexivity|]. rewrite rc_call_plain. now apply S3.
    Qed.

    Variables (fuel : nat) (flr : option R) (h : heap R D P) (k i disc : nat) (today e : D) (put : bool) (A K : R) (fm : formula R) (F t df y : R).
    Hypothesis Q : quoted fuel h k i disc c today e put A K fm F t df.
    Hypothesis VY : rc_call c e = Ok y.
    Definition value_of_spread (xs : list R) : R := df * (A * value_at fm put t K F (y + nth 0 xs 0)).

    Lemma quoted_fuel : (0 < fuel)%nat.
    Proof.
      destruct fuel; [|lia]. exfalso. destruct Q as [(_ & dc & _ & DF) _ _ _ _ _]. cbn in DF. unfold get_discount_factor, interest_only in DF.
      destruct (is_interest (rc_cls dc)); discriminate.
    Qed.
    Lemma quoted_priced : SFit.priced fuel flr h disc (Some today) i c [e] (PrList k) value_of_spread.
    Proof.
      destruct vol_fit as (A1 & PC & B8). destruct vol_form as (_ & _ & B1 & _).
      intros xs s LX ES. destruct xs as [|x [|? ?]]; try discriminate. unfold value_of_spread. cbn [nth].
      assert (NDe : NoDup (map tm [e])) by (repeat constructor; intros []).
      pose proof (on_grid_values (L:=L) c [e] tau PC ltac:(discriminate) NDe A1 [x] s LX ES) as VS. cbn [mapM] in VS.
      destruct (rc_call s e) as [x'|] eqn:EX; [|discriminate]. cbn [bind] in VS. injection VS as ->.
      refine (proj1 (quoted_pv fuel flr h k i disc c today e put A K fm F t df Q (mkR (rc_cls c) (rc_dc c) (rc_tenor0 c) (Some (inr s))) (y + x) B1 eq_refl _ quoted_fuel)).
      cbn [rc_call]. rewrite EX. clear -B8 VY. destruct c as [kc dcc tc sp]. cbn in B8. subst sp. cbn [rc_dc]. rewrite rc_call_plain in VY. cbn [rc_dc] in VY.
      rewrite VY. reflexivity.
    Qed.
    Lemma quoted_last : last_payment h (PrList k) e.
    Proof.
      destruct Q as [_ _ (l & j & m & pm & HL & HN & _) _ _ _]. unfold optionlist_new in HN. cbn in HN. injection HN as <-.
      exists [e]. split; [|reflexivity]. unfold returns, pr_domain, bindS, get_list. rewrite (nth_res_some _ _ _ HL). reflexivity.
    Qed.
    Lemma quoted_local : Forall (local tm [e]) [(e, value_of_spread)].
    Proof.
      constructor; [|constructor]. intros n d xs zs Hn _ LX LZ EQ. destruct n as [|[|?]]; try discriminate.
      cbn [snd]. unfold value_of_spread. specialize (EQ 0%nat (le_n _)). destruct xs as [|x ?], zs as [|z ?]; try discriminate. cbn in EQ |- *. congruence.
    Qed.
    Lemma quoted_error pv xs : total_error [(e, value_of_spread)] (spread_arg (Many [pv]) 1) xs e = value_of_spread xs - pv.
    Proof.
      unfold total_error. cbn [combine filter fst spread_arg map snd]. rewrite (leb_t (tm:=tm) e e (Rle_refl _)). cbn [map Rsum fst snd]. ring.
    Qed.
  End Curve.

  (** * C117: fitting a flat or other terminal volatility curve to the price of an option
      gives a volatility within the bounds; assigned to the curve, it reprices the option
      within the precision; and the discounted expected payoff under that volatility is the
      price, up to the precision and the accuracy of the model *)
  Theorem C117_implied : forall tau fuel flr h k i disc c dom ys orig count today e put A K fm F t df y pv precision a b data h',
    rc_new CTermVol dom ys None orig count None = Ok c ->
    length ys = length dom -> NoDup (map tm dom) -> dom <> [] ->
    additive (dc_apply count) tau -> dc_kwarg count = count ->
    quoted fuel h k i disc c today e put A K fm F t df -> rc_call c e = Ok y ->
    get_curve_fit fuel flr [PrList k] disc (Some today) (Some i) (Some [e]) (Many [pv]) precision a b h = (Ok data, h') ->
    h' = h /\ exists w c' u, data = [w] /\ inside (y + a) (y + b) w /\
      rc_setitem c e w = Ok c' /\
      returns (get_present_value fuel flr (PrList k) disc (Some today)) (mkH (set_nth i c' (h_curves h)) (h_models h) (h_lists h)) u /\
      Rabs (u - pv) < precision /\
      (0 < w -> exists ex, expectation (fun z => option_payoff put K (forward_at fm F w t z)) ex /\
         Rabs (df * (A * ex) - pv) < precision + Rabs (df * A) * tolerance fm F K w t).
  Proof.
    intros tau fuel flr h k i disc c dom ys orig count today e put A K fm F t df y pv p a b data h' HC LY ND NE AD KW Q VY H.
    destruct (vol_fit tau c dom ys orig count HC LY ND NE AD KW) as (A1 & PC & NS). pose proof (qt_vol _ _ _ _ _ _ _ _ _ _ _ _ _ _ _ Q) as HI.
    assert (FU : (0 < fuel)%nat) by (eapply quoted_fuel; eauto).
    destruct (C50_cumulative DS tm DC L tau fuel flr h c i disc (Some today) (Some i) (Some [e]) [e] (Many [pv]) [PrList k]
      [(e, value_of_spread put A K fm F t df y)] p a b data h')
      as (EH & xs & s & LX & ES & LD & DA & BD & _ & TE); auto; try discriminate.
    { repeat constructor. intros []. }
    { constructor; [|constructor]. split; [eapply quoted_last; eauto|]. eapply quoted_priced; eauto. }
    { apply quoted_local. }
    split; [exact EH|]. destruct xs as [|x [|? ?]]; try discriminate. destruct data as [|w [|? ?]]; try discriminate.
    pose proof (DA 0%nat e x y eq_refl eq_refl VY) as DW. injection DW as ->.
    specialize (TE e (or_introl eq_refl)). rewrite quoted_error in TE. unfold value_of_spread in TE. cbn [nth] in TE.
    destruct (vol_set tau c dom ys orig count HC LY ND NE AD e (y + x)) as (c' & S1 & S2 & S3).
    destruct (quoted_pv fuel flr h k i disc c today e put A K fm F t df Q c' (y + x) S2 (setitem_count _ _ _ _ S1) S3 FU) as [PV EX].
    exists (y + x), c', (df * (A * value_at fm put t K F (y + x))). split; [reflexivity|]. split.
    { specialize (BD x (or_introl eq_refl)). unfold inside, Rmin, Rmax in *. destruct (Rle_dec a b), (Rle_dec (y + a) (y + b)); lra. }
    split; [exact S1|]. split; [exact PV|]. split; [exact TE|].
    intros W. destruct (EX W) as (ex & X & E). exists ex. split; [exact X|].
    replace (df * (A * ex) - pv) with ((df * (A * value_at fm put t K F (y + x)) - pv) - (df * A) * (value_at fm put t K F (y + x) - ex)) by ring.
    eapply Rle_lt_trans; [apply Rabs_triang|]. rewrite Rabs_Ropp, (Rabs_mult (df * A)).
    pose proof (Rmult_le_compat_l _ _ _ (Rabs_pos (df * A)) E). lra.
  Qed.

  (** away from the volatilities at which one argument of the distribution function is zero,
      where its approximation jumps *)
  Definition smooth (fm : formula R) (F K t v : R) : Prop :=
    match fm with
    | FLogNormal => v ^ 2 * t <> 2 * Rabs (ln (F / K))
    | FDisplaced a => v ^ 2 * t <> 2 * Rabs (ln ((F + a) / (K + a)))
    | _ => True
    end.

  Lemma value_lip fm put t K F lo hi : PStrikes.priced fm F K 1 t -> 0 < lo -> lo <= hi ->
    (forall v, lo <= v <= hi -> smooth fm F K t v) -> lip (value_at fm put t K F) lo hi.
  Proof.
    intros MK LO LE SM. pose proof MK as (_ & Ht & OK).
    assert (G : lip (fun v => value_of (call_price fm t K F v)) lo hi).
    { destruct fm; try contradiction; cbn [call_price].
      - apply (lip_ext lo hi (bachelier_call t K F)); [|now apply bachelier_lip]. intros v V. rewrite normal_price_ok; auto. lra.
      - apply (lip_ext lo hi (black_call t K F)); [|now apply black_lip]. intros v V.
        rewrite black_price_ok; auto; try lra. apply Rdiv_lt_0_compat; lra.
      - apply (lip_ext lo hi (black_call t (K + displacement) (F + displacement))); [|now apply black_lip]. intros v V. rn.
        rewrite black_price_ok; auto; try lra. apply Rdiv_lt_0_compat; lra. }
    assert (E : forall v, lo <= v <= hi -> value_at fm put t K F v = (if put then K - F else 0) + value_of (call_price fm t K F v)).
    { intros v V. unfold value_at. destruct (Req_EM_T v 0); [lra|]. destruct put; ring. }
    eapply lip_ext; [intros v V; symmetry; exact (E v V)|]. apply lip_plus; auto using lip_const.
  Qed.

  (** * C117: the search succeeds if the bounds enclose the volatility: if the option is
      worth at most the price with the lower and at least the price with the upper one (or
      the other way round), and all volatilities in between are positive and smooth *)
  Theorem C117_returns : forall tau flr h k i disc c dom ys orig count today e put A K fm F t df y precision a b,
    rc_new CTermVol dom ys None orig count None = Ok c ->
    length ys = length dom -> NoDup (map tm dom) -> dom <> [] ->
    additive (dc_apply count) tau -> dc_kwarg count = count -> rc_call c e = Ok y ->
    PStrikes.priced fm F K 1 t -> 0 < precision -> a <= b -> 0 < y + a -> (forall w, y + a <= w <= y + b -> smooth fm F K t w) ->
    exists N, forall n pv c1 c2 u1 u2, (N <= n)%nat ->
      quoted (S n) h k i disc c today e put A K fm F t df ->
      rc_setitem c e (y + a) = Ok c1 -> rc_setitem c e (y + b) = Ok c2 ->
      returns (get_present_value (S n) flr (PrList k) disc (Some today)) (mkH (set_nth i c1 (h_curves h)) (h_models h) (h_lists h)) u1 ->
      returns (get_present_value (S n) flr (PrList k) disc (Some today)) (mkH (set_nth i c2 (h_curves h)) (h_models h) (h_lists h)) u2 ->
      u1 <= pv <= u2 \/ u2 <= pv <= u1 ->
      exists data, get_curve_fit (S n) flr [PrList k] disc (Some today) (Some i) (Some [e]) (Many [pv]) precision a b h = (Ok data, h).
  Proof.
    intros tau flr h k i disc c dom ys orig count today e put A K fm F t df y p a b HC LY ND NE AD KW VY MK HP AB PA SM.
    destruct (vol_fit tau c dom ys orig count HC LY ND NE AD KW) as (A1 & PC & NS).
    destruct (vol_form tau c dom ys orig count HC LY ND NE AD) as (o & HO & B1 & B2 & B5 & B6 & B7 & B8 & VS).
    destruct (value_lip fm put t K F (y + a) (y + b) MK PA ltac:(lra) SM) as (C & CP & HL).
    set (M := Rabs (df * A) * C). assert (M0 : 0 <= M) by (apply Rmult_le_pos; auto using Rabs_pos).
    destruct (Pow_x_infinity 2 ltac:(rewrite Rabs_right; lra) ((M + 1) * (b - a) / p + 1)) as (N & HN).
    exists N. intros n pv c1 c2 u1 u2 LN Q S1 S2 R1 R2 BR. specialize (HN n LN). rewrite Rabs_right in HN by (apply Rle_ge, pow_le; lra).
    assert (P2 : 0 < 2 ^ n) by (apply pow_lt; lra).
    pose proof (qt_vol _ _ _ _ _ _ _ _ _ _ _ _ _ _ _ Q) as HI. assert (FU : (0 < S n)%nat) by lia.
    assert (GU : forall z c' u, rc_setitem c e z = Ok c' ->
      returns (get_present_value (S n) flr (PrList k) disc (Some today)) (mkH (set_nth i c' (h_curves h)) (h_models h) (h_lists h)) u -> u = df * (A * value_at fm put t K F z)).
    { intros z c' u SZ RZ. destruct (vol_set tau c dom ys orig count HC LY ND NE AD e z) as (c2' & T1 & T2 & T3). rewrite SZ in T1. injection T1 as <-.
      destruct (quoted_pv (S n) flr h k i disc c today e put A K fm F t df Q c' z T2 (setitem_count _ _ _ _ SZ) T3 FU) as [PV _].
      unfold returns in RZ, PV. congruence. }
    apply (GU _ _ _ S1) in R1. apply (GU _ _ _ S2) in R2. subst u1 u2.
    assert (CA : exists s0, rc_cast_on (S n) flr (rc_cls c) [e] c None None DcDefault None = Ok s0).
    { assert (NDe : NoDup (map tm [e])) by (repeat constructor; intros []).
      destruct (on_grid_ok (L:=L) c [e] tau PC ltac:(discriminate) NDe A1 [y] eq_refl) as (s0 & E0).
      exists s0. unfold on_grid, rc_new, prepare_data in E0. rewrite B1 in *. cbn [is_probability bind] in E0.
      unfold rc_cast_on. cbn [mapM storage_value terminal_vol]. rewrite B1, VY. cbn [bind]. rewrite B2, VS. cbn [bind origin_or dc_or]. exact E0. }
    destruct CA as (s0 & CA).
    assert (W0 : (M + 1) * (b - a) / p < 2 ^ n) by lra.
    assert (W1 : (M + 1) * (b - a) < p * 2 ^ n).
    { apply (Rmult_lt_compat_r p) in W0; auto. replace ((M + 1) * (b - a) / p * p) with ((M + 1) * (b - a)) in W0 by (field; lra). lra. }
    assert (W2 : (M + 1) * (Rabs (b - a) / 2 ^ n) < p).
    { rewrite Rabs_right by lra. apply Rmult_lt_reg_r with (2 ^ n); auto. replace ((M + 1) * ((b - a) / 2 ^ n) * 2 ^ n) with ((M + 1) * (b - a)) by (field; lra). exact W1. }
    assert (W3 : 0 <= Rabs (b - a) / 2 ^ n) by (apply Rmult_le_pos; [apply Rabs_pos|left; now apply Rinv_0_lt_compat]).
    apply (C50_returns DS tm DC L tau n flr h c i disc (Some today) (Some i) (Some [e]) [e] (Many [pv]) [PrList k]
      [(e, value_of_spread put A K fm F t df y)] p a b s0 [y] M); auto; try discriminate.
    - repeat constructor. intros [].
    - constructor; [|constructor]. split; [eapply quoted_last; eauto|]. eapply quoted_priced; eauto.
    - apply quoted_local.
    - cbn [mapM]. now rewrite VY.
    - intros j d xs Hj LX _. destruct j as [|[|?]]; try discriminate. injection Hj as <-. destruct xs as [|x0 [|? ?]]; try discriminate. cbn [set_nth].
      assert (EV : forall x, total_error [(e, value_of_spread put A K fm F t df y)] (spread_arg (Many [pv]) (length [PrList (D:=D) k])) [x] e = df * (A * value_at fm put t K F (y + x)) - pv)
        by (intros; apply quoted_error).
      split.
      + unfold sign_change. rewrite !EV. lra.
      + intros x z X Z. rewrite !EV. unfold inside in X, Z. rewrite Rmin_left, Rmax_right in X, Z by lra.
        replace (df * (A * value_at fm put t K F (y + x)) - pv - (df * (A * value_at fm put t K F (y + z)) - pv))
          with ((df * A) * (value_at fm put t K F (y + x) - value_at fm put t K F (y + z))) by ring.
        rewrite Rabs_mult. unfold M. rewrite Rmult_assoc. apply Rmult_le_compat_l; [apply Rabs_pos|].
        replace (x - z) with (y + x - (y + z)) by ring. apply HL; lra.
    - nra.
    - nra.
  Qed.
End Implied.
Print Assumptions C117_implied.
Print Assumptions C117_returns.

(** a quarter year call on 100 with strike 110, a flat rate of 5% and a flat volatility of
    10% to be fitted within -5% and +20% *)
#[local] Instance no_counts : DayCounts R R := [].
Definition vol_model (cs : list (rcurve R R (fperiod R))) : omodel R R (fperiod R) :=
  mkOM FLogNormal default_gconst None (FwNum 100) (match nth_error cs 1 with Some c => VoRate c | None => VoNone end) None false.
Example C117_instance : exists (h : heap R R (fperiod R)) c N,
  rc_new (DS := FloatDates (T:=R)) CTermVol [0] [1 / 10] None None DcDefault None = Ok c /\ rc_call c (1 / 4) = Ok (1 / 10) /\
  (forall n, quoted FloatDates no_counts (S (S n)) h 0 1 0 c 0 (1 / 4) false 1 110 FLogNormal 100 (1 / 4) (exp (- (5 / 100 * (1 / 4 - 0))))) /\
  (forall w, 1 / 10 + - (5 / 100) <= w <= 1 / 10 + 2 / 10 -> smooth FLogNormal 100 110 (1 / 4) w) /\
  forall n, (N <= n)%nat -> exists pv data,
    get_curve_fit (S (S n)) None [PrList 0] 0 (Some 0) (Some 1%nat) (Some [1 / 4]) (Many [pv]) (1 / 10 ^ 7) (- (5 / 100)) (2 / 10) h = (Ok data, h).
Proof.
  destruct (flat_zero (DC := no_counts) (L:=float_laws) 0 (5 / 100) None) as (disc & ED & OD & _ & DF).
  destruct (single_curve (DC := no_counts) (L:=float_laws) DcDefault _ CTermVol 0 (1 / 10) None None 0 (default_additive (L:=float_laws)) eq_refl eq_refl)
    as (c & EC & BC & VC).
  assert (OL : exists l, optionlist_new (DS := FloatDates (T:=R)) [1 / 4] (One 1) (One (Some 110)) (One false) None None (Some 0) (PmSource FwNone) = Ok l)
    by (eexists; reflexivity).
  destruct OL as (l & EL). set (h := mkH [disc; c] [mkHM None vol_model] [mkHL l (HModel 0)]).
  assert (Q : forall n, quoted FloatDates no_counts (S (S n)) h 0 1 0 c 0 (1 / 4) false 1 110 FLogNormal 100 (1 / 4) (exp (- (5 / 100 * (1 / 4 - 0))))).
  { intros n. constructor.
    - split; [discriminate|]. exists disc. split; [reflexivity|]. apply DF.
    - reflexivity.
    - exists l, 0%nat, (mkHM None vol_model), (PmSource FwNone). split; [reflexivity|]. split; [exact EL|]. split; [reflexivity|].
      intros c'. cbn. replace (ntruthy (100 : R)) with true; [repeat split|]. unfold ntruthy. cbn. unfold Reqb. destruct (Req_EM_T 100 0); [lra|reflexivity].
    - destruct BC as (_ & _ & _ & Y & _). refine (eq_trans (Y 0 (1 / 4)) _). change (Ok (1 / 4 - 0) = Ok (1 / 4)). f_equal. lra.
    - apply (leb_t (L:=float_laws)). lra.
    - repeat split; lra. }
  assert (SM : forall w, 1 / 10 + - (5 / 100) <= w <= 1 / 10 + 2 / 10 -> smooth FLogNormal 100 110 (1 / 4) w).
  { intros w W. cbn [smooth]. assert (E1 : exp (1 / 20) < 11 / 10).
    { pose proof (exp_ineq1 (- (1 / 20)) ltac:(lra)) as E. pose proof (exp_pos (1 / 20)). rewrite exp_Ropp in E.
      assert (exp (1 / 20) * / exp (1 / 20) = 1) by (field; lra). nra. }
    assert (E2 : 1 / 20 < ln (11 / 10)) by (rewrite <- (ln_exp (1 / 20)); apply ln_increasing; auto using exp_pos).
    replace (100 / 110) with (/ (11 / 10)) by lra. rewrite ln_Rinv by lra. rewrite Rabs_Ropp, Rabs_right by lra. nra. }
  destruct (C117_returns FloatDates (fun d => d) no_counts float_laws (fun a b => b - a) None h 0 1 0 c [0] [1 / 10] None DcDefault 0 (1 / 4) false 1 110 FLogNormal 100 (1 / 4)
    (exp (- (5 / 100 * (1 / 4 - 0)))) (1 / 10) (1 / 10 ^ 7) (- (5 / 100)) (2 / 10) EC eq_refl) as (N & HN); auto.
  { repeat constructor. intros []. } { discriminate. } { apply (default_additive (L:=float_laws)). } { repeat split; lra. } { lra. } { lra. } { lra. }
  exists h, c, N. split; [exact EC|]. split; [apply VC|]. split; [exact Q|]. split; [exact SM|]. intros n LN.
  destruct (vol_set FloatDates (fun d => d) no_counts float_laws (fun a b => b - a) c [0] [1 / 10] None DcDefault EC eq_refl ltac:(repeat constructor; intros []) ltac:(discriminate)
    (default_additive (L:=float_laws)) (1 / 4) (1 / 10 + - (5 / 100))) as (c1 & S1 & S2 & S3).
  destruct (vol_set FloatDates (fun d => d) no_counts float_laws (fun a b => b - a) c [0] [1 / 10] None DcDefault EC eq_refl ltac:(repeat constructor; intros []) ltac:(discriminate)
    (default_additive (L:=float_laws)) (1 / 4) (1 / 10 + 2 / 10)) as (c2 & T1 & T2 & T3).
  destruct (quoted_pv FloatDates (fun d => d) no_counts float_laws (S (S n)) None h 0 1 0 c 0 (1 / 4) false 1 110 FLogNormal 100 (1 / 4) _ (Q n) c1 _ S2 (setitem_count _ _ _ _ _ _ S1) S3 ltac:(lia)) as [P1 _].
  destruct (quoted_pv FloatDates (fun d => d) no_counts float_laws (S (S n)) None h 0 1 0 c 0 (1 / 4) false 1 110 FLogNormal 100 (1 / 4) _ (Q n) c2 _ T2 (setitem_count _ _ _ _ _ _ T1) T3 ltac:(lia)) as [P2 _].
  eexists. refine (HN (S n) _ c1 c2 _ _ ltac:(lia) (Q n) S1 T1 P1 P2 _). 
  match goal with |- ?u <= _ <= ?v \/ _ => instantiate (1 := u); destruct (Rle_dec u v); lra end.
Qed.
