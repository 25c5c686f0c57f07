(** Properties C77 and C78: the details of payoffs and the tables of cash flow lists. *)
From Coq Require Import Reals Lra Lia ZArith List Bool.
From Verif Require Import Num Py Spec MPlans MDates MCurve MRateCurve MOption MCashflow MDetails SDates SOption
  SCashflow SDetails LBase LDates LOption LCashflow LDetails.
Import ListNotations.
Open Scope R_scope.

Lemma ok_inj {A} (a b : A) : Ok a = Ok b -> a = b.
Proof. now intros [= ->]. Qed.

Section Details.
  Context {T D P : Type} {N : Num T} (DS : DateSys T D P) (DC : DayCounts T D).

  (** * C77: details explain the cash flow *)
  (** the amount of a payoff is the entry 'cashflow' of its details; one raises iff the other
      does, with the same error *)
  Theorem C77_cashflow : forall fuel flr (p : payoff T D P) a, (forall f, p <> PCall f) ->
    (forall x, pay fuel flr p a = Ok x <->
       exists e, details fuel flr p a = Ok e /\ dget e KCashflow = Some (VNum x)) /\
    (forall er, pay fuel flr p a = Err er <-> details fuel flr p a = Err er).
  Proof.
    intros fuel flr p a NC.
    assert (K : pay fuel flr p a =
                (e <- details fuel flr p a ;;
                 match dget e KCashflow with Some (VNum x) => Ok x | _ => Err TypeError end)%res /\
                (forall e, details fuel flr p a = Ok e -> exists x, dget e KCashflow = Some (VNum x))).
    { destruct p as [x|r|o|os|r floor cap|f]; cbn [pay details].
      - split; [reflexivity|]. intros e [= <-]. now exists x.
      - rewrite d_rate_pay. split.
        + destruct (d_rate fuel r a) as [e|] eqn:E; [|reflexivity]. cbn [bind].
          destruct (d_rate_fields DS DC _ _ _ _ E) as (yf & f & c & _ & _ & _ & _ & _ & _ & Y & C & _).
          now rewrite Y, C.
        + intros e E. destruct (d_rate_fields DS DC _ _ _ _ E) as (yf & f & c & _ & _ & _ & _ & _ & _ & _ & C & _).
          eauto.
      - split.
        + destruct (d_option fuel flr o a) as [e|er] eqn:E.
          * destruct (d_option_ok _ _ _ _ _ _ _ E) as (x & O & G). cbn [bind]. now rewrite G.
          * now apply d_option_err in E.
        + intros e E. destruct (d_option_ok _ _ _ _ _ _ _ E) as (x & _ & G). eauto.
      - assert (X := d_options_sum DS DC fuel flr a os 0 [(KCashflow, VNum n0)] n0).
        unfold strategy_cashflow, d_strategy. split.
        + destruct (d_options fuel flr os a 0 [(KCashflow, VNum n0)] n0) as [[d cf]|er] eqn:Q.
          2:{ rewrite X. reflexivity. }
          destruct X as (vs & M & S). cbn [snd] in S. rewrite M. cbn [bind].
          assert (F : forall d', dget (dset KCashflow (VNum cf) d') KCashflow = Some (@VNum T D P (nsum vs)))
            by (intros d'; now rewrite dget_dset_same, S).
          destruct os as [|o os]; [cbn [bind]; now rewrite F|].
          destruct a as [s|m].
          * destruct (src_truthy s) eqn:TR; [|cbn [bind]; now rewrite F].
            cbn [mapM] in M. unfold option_cashflow at 1 in M. rewrite TR in M. discriminate.
          * assert (ME : exists e, d_model fuel flr m (op_expiry o) (op_strike o) = Ok e).
            { cbn [mapM] in M. unfold option_cashflow at 1 in M.
              match type of M with context [if op_put o then ?A else ?B] =>
                destruct (if op_put o then A else B) as [v|] eqn:V; [|discriminate] end.
              destruct (value_details _ _ _ _ _ _ _ _ _ V) as [y Y].
              destruct (d_model_value _ _ _ _ _ _ _ _ Y) as (e & E & _). eauto. }
            destruct ME as [e0 ME]. destruct (d_model_strike _ _ _ _ _ _ _ None _ ME) as [e' E'].
            rewrite E'. cbn [bind]. now rewrite F.
        + intros e. destruct (d_options fuel flr os a 0 [(KCashflow, VNum n0)] n0) as [[d cf]|er]; [|discriminate].
          cbn [bind]. match goal with |- context [bind ?m _] => destruct m; [|discriminate] end.
          cbn [bind]. intros [= <-]. exists cf. apply dget_dset_same.
      - unfold cont_cashflow, d_contingent. rewrite d_rate_pay.
        destruct (d_rate fuel r (PmSource (pm_source a))) as [d|] eqn:E; [|split; [reflexivity|discriminate]].
        cbn [bind]. destruct (d_rate_fields DS DC _ _ _ _ E) as (yf & f & c & _ & _ & NO & _ & _ & _ & Y & C & REST).
        rewrite Y, C, NO. cbn [bind rd_cashflow rd_yf rd_fixing].
        destruct a as [s|m]; [split; [cbn [bind]; now rewrite C|intros e [= <-]; eauto]|].
        cbn [pm_source pm_truthy] in REST. destruct (src_truthy (om_forward m)).
        2:{ destruct REST as (_ & _ & FX & _). rewrite FX. split; [reflexivity|discriminate]. }
        destruct REST as (x & _ & _ & _ & FX & _). rewrite FX.
        assert (V : forall k (b : bool) v,
                   (if b then get_put_value fuel flr m x (Some k) else get_call_value fuel flr m x (Some k)) = Ok v ->
                   exists e, d_model fuel flr m x (Some k) = Ok e).
        { intros k b v H. destruct (value_details _ _ _ _ _ _ _ _ _ H) as [y Y'].
          destruct (d_model_value _ _ _ _ _ _ _ _ Y') as (e & E' & _). eauto. }
        assert (V' : forall k (b : bool) er,
                   d_model fuel flr m x (Some k) = Err er ->
                   (if b then get_put_value fuel flr m x (Some k) else get_call_value fuel flr m x (Some k)) = Err er).
        { intros k b er. unfold d_model, get_put_value, get_call_value.
          destruct (om_details fuel flr m x (Some k)); [discriminate|]. cbn. intros [= <-]. now destruct b. }
        split.
        + destruct floor as [k|]; cbn [bind].
          * destruct (d_model fuel flr m x (Some k)) as [e|er] eqn:M.
            2:{ assert (W := V' k true er M). cbn iota in W. rewrite W. reflexivity. }
            cbn [bind]. destruct (get_put_value fuel flr m x (Some k)) as [v|]; [|reflexivity]. cbn [bind].
            destruct cap as [k'|]; cbn [bind].
            -- destruct (d_model fuel flr m x (Some k')) as [e'|er] eqn:M'.
               2:{ assert (W := V' k' false er M'). cbn iota in W. rewrite W. reflexivity. }
               cbn [bind]. destruct (get_call_value fuel flr m x (Some k')) as [v'|]; [|reflexivity]. cbn [bind].
               now rewrite dget_dset_same.
            -- now rewrite dget_dset_same.
          * destruct cap as [k'|]; cbn [bind].
            -- destruct (d_model fuel flr m x (Some k')) as [e'|er] eqn:M'.
               2:{ assert (W := V' k' false er M'). cbn iota in W. rewrite W. reflexivity. }
               cbn [bind]. destruct (get_call_value fuel flr m x (Some k')) as [v'|]; [|reflexivity]. cbn [bind].
               now rewrite dget_dset_same.
            -- now rewrite dget_dset_same.
        + intros e.
          repeat (match goal with |- context [bind ?m _] => destruct m; [|discriminate] end; cbn [bind]).
          intros [= <-]. eexists. apply dget_dset_same.
      - now destruct (NC f). }
    destruct K as [K1 K2]. rewrite K1. split.
    - intros x. destruct (details fuel flr p a) as [e|]; cbn [bind].
      + destruct (K2 e eq_refl) as [y Y]. rewrite Y. split.
        * intros [= <-]. eauto.
        * intros (e' & [= <-] & G). congruence.
      + split; [discriminate|]. now intros (e1 & H & _).
    - intros er. destruct (details fuel flr p a) as [e|]; cbn [bind].
      + destruct (K2 e eq_refl) as [y Y]. rewrite Y. split; discriminate.
      + split; intros [= <-]; reflexivity.
  Qed.

  (** strategies: the entries "#i ..." are the details of the i-th option *)
  Theorem C77_strategy_entries : forall fuel flr os (a : pmodel T D P) e,
    details fuel flr (PStrategy os) a = Ok e ->
    forall i o, nth_error os i = Some o ->
      exists ei, details fuel flr (POption o) a = Ok ei /\
        forall k, dget e (KNum i k) = dget ei k.
  Proof.
    intros fuel flr os a e H i o I. cbn [details] in *. unfold d_strategy in H.
    destruct (d_options fuel flr os a 0 [(KCashflow, VNum n0)] n0) as [[d cf]|] eqn:Q; [|discriminate].
    cbn [bind] in H. destruct (d_options_get DS DC _ _ _ _ _ _ _ _ Q i o I) as (ei & E & G).
    exists ei. split; [exact E|]. cbn [fst] in G.
    assert (G' : forall k, dget d (KNum i k) = dget ei k).
    { intros k. specialize (G k). cbn [Nat.add] in G. rewrite G. destruct (dget ei k); reflexivity. }
    intros k. destruct os as [|o' os]; [now destruct i|].
    assert (F : forall d' : list (key * value T D P), dget (dset KCashflow (VNum cf) d') (KNum i k) = dget d' (KNum i k))
      by (intros d'; now apply dget_dset_other).
    destruct a as [s|m].
    - destruct (src_truthy s); [discriminate|]. cbn [bind] in H. injection H as <-. now rewrite F.
    - destruct (d_model fuel flr m (op_expiry o') None) as [em|] eqn:M; [|discriminate]. cbn [bind] in H.
      injection H as <-. rewrite F, dupdate_keys; [apply G'|].
      intros k' v IN. apply filter_In in IN. destruct IN as [IN _]. clear -M IN. unfold d_model in M.
      destruct (om_details fuel flr m (op_expiry o') None) as [x|]; [|discriminate]. cbn [bind] in M.
      injection M as <-.
      repeat (apply in_app_or in IN; destruct IN as [IN|IN]);
        repeat match type of IN with context [match ?z with _ => _ end] => destruct z end;
        cbn in IN; intuition congruence.
  Qed.
End Details.
Print Assumptions C77_cashflow.
Print Assumptions C77_strategy_entries.

Section Values.
  Context {D P : Type} (DS : DateSys R D P) (DC : DayCounts R D).

  (** an entry which may be missing counts as zero *)
  Definition entry (e : list (key * value R D P)) (k : key) (x : R) : Prop :=
    dget e k = Some (VNum x) \/ (dget e k = None /\ x = 0).

  (** rate payoffs: cash flow = notional * year fraction * (fixed rate + forward rate) *)
  Theorem C77_rate : forall fuel flr (r : ratep R D P) a e,
    details fuel flr (PRate r) a = Ok e ->
    exists cf n yf c f s t,
      dget e KCashflow = Some (VNum cf) /\ dget e KNotional = Some (VNum n) /\
      dget e KYearFraction = Some (VNum yf) /\ dget e KFixedRate = Some (VNum c) /\
      dget e KStart = Some (VDate s) /\ dget e KEnd = Some (VDate t) /\
      entry e KForwardRate f /\ cf = n * yf * (c + f) /\
      s = rp_start r /\ t = rp_end r /\ n = rp_amount r /\ rp_rate r = Some c /\
      pay_count (rp_count r) s t = Ok yf /\
      (pm_truthy a = true -> exists d, dget e KFixing = Some (VDate d) /\
         moved_back (rp_start r) (rp_fixing r) d /\ dget e KForwardRate = Some (VNum f) /\
         source_rate fuel (pm_source a) d = Ok f).
  Proof.
    intros fuel flr r a e H. cbn [details] in H.
    destruct (d_rate_fields DS DC _ _ _ _ H) as (yf & f & c & PC & RR & NO & FR & ST & EN & Y & C & REST).
    exists ((c + f) * yf * rp_amount r), (rp_amount r), yf, c, f, (rp_start r), (rp_end r).
    repeat (split; [assumption|]).
    destruct (pm_truthy a).
    - destruct REST as (d & O & S & FW & FX & _). split; [left; exact FW|]. split; [ring|].
      repeat (split; [reflexivity|]). split; [exact RR|]. split; [exact PC|]. intros _. exists d.
      split; [exact FX|]. split; [now apply moved_offset|]. now split.
    - destruct REST as (F0 & FW & _). split; [right; split; [exact FW|exact F0]|]. split; [ring|].
      repeat (split; [reflexivity|]). split; [exact RR|]. split; [exact PC|]. discriminate.
  Qed.

  (** the label says 'pay' for a positive notional, whose coupons at a positive rate are
      positive cash flows, and 'rec' otherwise *)
  Theorem C77_pay_rec : forall fuel flr (r : ratep R D P) a e,
    details fuel flr (PRate r) a = Ok e ->
    (0 < rp_amount r -> dget e KPayRec = Some (VLabel LPay)) /\
    (rp_amount r <= 0 -> dget e KPayRec = Some (VLabel LRec)).
  Proof.
    intros fuel flr r a e H. cbn [details] in H. rewrite (d_rate_label DS DC _ _ _ _ H).
    change (n0 <? rp_amount r)%num with (Rltb 0 (rp_amount r)).
    split; intro Q; [rewrite (proj2 (Rltb_true _ _) Q)|rewrite (proj2 (Rltb_false _ _) Q)]; reflexivity.
  Qed.

  (** options: the cash flow is the notional times the value of the formula at the entries
      'time to expiry', 'strike', 'forward' and 'volatility' *)
  Theorem C77_option : forall fuel flr (o : optp R D) m e,
    details fuel flr (POption o) (PmModel m) = Ok e ->
    exists cf n t k f v x,
      dget e KCashflow = Some (VNum cf) /\ dget e KNotional = Some (VNum n) /\
      dget e KTime = Some (VNum t) /\ dget e KStrike = Some (VNum k) /\
      dget e KForward = Some (VNum f) /\ entry e KVolatility v /\
      dget e KPutCall = Some (VLabel (if op_put o then LPut else LCall)) /\
      dget e KExpiry = Some (VDate (op_expiry o)) /\
      n = op_amount o /\ cf = n * x /\
      k = match op_strike o with Some k => k | None => f end /\
      ((v = 0 \/ t = 0) -> x = Rmax (if op_put o then k - f else f - k) 0) /\
      (v <> 0 -> t <> 0 -> exists c, call_price (om_formula m) t k f v = Ok c /\
         x = if op_put o then k - f + c else c).
  Proof.
    intros fuel flr o m e H. cbn [details] in H. unfold d_option in H.
    set (val := if op_put o then get_put_value fuel flr m (op_expiry o) (op_strike o)
                else get_call_value fuel flr m (op_expiry o) (op_strike o)) in H.
    destruct val as [x|] eqn:V; [|discriminate]. cbn [bind] in H.
    destruct (value_details _ _ _ _ _ _ _ _ _ V) as [y Y].
    destruct (d_model_value _ _ _ _ _ _ _ _ Y) as (em & M & ND & C & NO & PC & LS & EX & VA & FW & ST & VO & TI).
    rewrite M in H. cbn [bind] in H. injection H as <-.
    assert (G : forall k, dget (dupdate (dset KCashflow (VNum (nmul (op_amount o) x))
                 [(KCashflow, VNum n0); (KPutCall, VLabel (if op_put o then LPut else LCall));
                  (KLongShort, VLabel (if nltb n0 (op_amount o) then LLong else LShort));
                  (KNotional, VNum (op_amount o)); (KStrike, vnum (op_strike o)); (KExpiry, VDate (op_expiry o))]) em) k =
               match dget em k with Some v => Some v | None =>
                 dget (dset KCashflow (VNum (nmul (op_amount o) x))
                   [(KCashflow, VNum n0); (KPutCall, VLabel (if op_put o then LPut else LCall));
                    (KLongShort, VLabel (if nltb n0 (op_amount o) then LLong else LShort));
                    (KNotional, VNum (op_amount o)); (KStrike, vnum (op_strike o)); (KExpiry, VDate (op_expiry o))]) k end)
      by (intros k; now apply dupdate_get).
    set (D0 := dupdate _ _) in *.
    (* the forward exists *)
    assert (FF : exists f, od_forward y = Some f).
    { unfold val in V. destruct (op_put o); [unfold get_put_value in V|unfold get_call_value in V];
        rewrite Y in V; cbn [bind] in V; (destruct (od_forward y) as [f|]; [now exists f|discriminate]). }
    destruct FF as [f FF]. rewrite FF in FW. cbn [option_map] in FW.
    assert (ST' : od_strike y = match op_strike o with Some k => k | None => f end).
    { unfold om_details in Y. destruct (fw_value fuel (om_forward m) (op_expiry o)) as [f'|]; [|discriminate].
      cbn [bind] in Y. destruct (vo_value _ _ _ _); [|discriminate]. cbn [bind] in Y.
      destruct (om_time _ _); [|discriminate]. cbn [bind] in Y. injection Y as <-. cbn in FF |- *. subst f'.
      now destruct (op_strike o). }
    exists (op_amount o * x), (op_amount o), (od_time y), (od_strike y), f,
           (match od_vol y with Some v => v | None => 0 end), x.
    split; [rewrite G, C; reflexivity|]. split; [rewrite G, NO; reflexivity|].
    split; [rewrite G, TI; reflexivity|]. split; [rewrite G, ST; reflexivity|].
    split; [rewrite G, FW; reflexivity|].
    split. { unfold entry. rewrite G, VO. destruct (od_vol y); [left; reflexivity|right; split; reflexivity]. }
    split; [rewrite G, PC; reflexivity|]. split; [rewrite G, EX; reflexivity|].
    split; [reflexivity|]. split; [reflexivity|]. split; [exact ST'|].
    assert (DEG : degenerate y = true <-> (match od_vol y with Some v => v | None => 0 end = 0 \/ od_time y = 0)).
    { unfold degenerate. destruct (od_vol y) as [v|].
      - rewrite orb_true_iff, !negb_true_iff, !ntruthy_false. reflexivity.
      - split; [auto|reflexivity]. }
    unfold val in V. split.
    - intros Z. apply DEG in Z. destruct (op_put o); [unfold get_put_value in V|unfold get_call_value in V];
        rewrite Y in V; cbn [bind] in V; rewrite FF in V; cbn [number bind] in V; rewrite Z in V;
        injection V as <-; rewrite nmax_Rmax; reflexivity.
    - intros V0 T0. assert (Z : degenerate y = false).
      { destruct (degenerate y); auto. destruct (proj1 DEG eq_refl); contradiction. }
      destruct (op_put o); [unfold get_put_value in V|unfold get_call_value in V];
        rewrite Y in V; cbn [bind] in V; rewrite FF in V; cbn [number bind] in V; rewrite Z in V;
        (destruct (od_vol y) as [v|]; [|discriminate]); cbn [number bind] in V.
      + destruct (call_price (om_formula m) (od_time y) (od_strike y) f v) as [c|] eqn:CP; [|discriminate].
        cbn [bind] in V. injection V as <-. exists c. split; reflexivity.
      + exists x. split; [exact V|reflexivity].
  Qed.

  (** strategies: the cash flow is the sum of the entries "#i cashflow" *)
  Theorem C77_strategy : forall fuel flr os (a : pmodel R D P) e,
    details fuel flr (PStrategy os) a = Ok e ->
    exists xs, dget e KCashflow = Some (VNum (Rsum xs)) /\ length xs = length os /\
      forall i x, nth_error xs i = Some x -> dget e (KNum i KCashflow) = Some (VNum x).
  Proof.
    intros fuel flr os a e H.
    assert (EN := C77_strategy_entries DS DC fuel flr os a e H).
    cbn [details] in H. unfold d_strategy in H.
    assert (X := d_options_sum DS DC fuel flr a os 0 [(KCashflow, VNum n0)] n0).
    destruct (d_options fuel flr os a 0 [(KCashflow, VNum n0)] n0) as [[d cf]|]; [|discriminate].
    destruct X as (vs & M & S). cbn [snd bind] in *.
    exists vs. split; [|split].
    - match type of H with bind ?z _ = _ => destruct z as [d'|]; [|discriminate] end.
      cbn [bind] in H. injection H as <-. rewrite dget_dset_same, S. do 2 f_equal.
      change (nsum vs = Rsum vs). apply nsum_Rsum.
    - apply mapM_length in M. exact M.
    - intros i x I.
      assert (LI : (i < length os)%nat) by (rewrite <- (mapM_length _ _ _ M); apply nth_error_Some; congruence).
      destruct (nth_error os i) as [o|] eqn:O; [|now apply nth_error_None in O; lia].
      destruct (EN i o O) as (ei & E & G). rewrite G. cbn [details] in E.
      destruct (d_option_ok _ _ _ _ _ _ _ E) as (x' & OC & C).
      destruct (mapM_nth _ _ _ _ _ M O) as (x2 & A & B). congruence.
  Qed.

  (** capped and floored coupons: rate payment plus floorlet minus caplet *)
  Theorem C77_contingent : forall fuel flr (r : ratep R D P) floor cap m e,
    details fuel flr (PContRate r floor cap) (PmModel m) = Ok e ->
    exists cf n yf c f d fl cl,
      dget e KCashflow = Some (VNum cf) /\ dget e KNotional = Some (VNum n) /\
      dget e KYearFraction = Some (VNum yf) /\ dget e KFixedRate = Some (VNum c) /\
      dget e KForwardRate = Some (VNum f) /\ dget e KFixing = Some (VDate d) /\
      entry e KFloorlet fl /\ entry e KCaplet cl /\
      cf = n * yf * (c + f) + fl - cl /\
      n = rp_amount r /\ rp_rate r = Some c /\ moved_back (rp_start r) (rp_fixing r) d /\
      match floor with
      | Some k => dget e KFloorletStrike = Some (VNum k) /\
                  exists v, get_put_value fuel flr m d (Some k) = Ok v /\ fl = v * yf * n
      | None => fl = 0
      end /\
      match cap with
      | Some k => dget e KCapletStrike = Some (VNum k) /\
                  exists v, get_call_value fuel flr m d (Some k) = Ok v /\ cl = v * yf * n
      | None => cl = 0
      end.
  Proof.
    intros fuel flr r floor cap m e H. cbn [details] in H. unfold d_contingent in H. cbn [pm_source] in H.
    destruct (d_rate fuel r (PmSource (om_forward m))) as [d|] eqn:E; [|discriminate]. cbn [bind] in H.
    assert (KEYS : forall k, In k [KFloorlet; KFloorletStrike; KCaplet; KCapletStrike] -> dget d k = None).
    { unfold d_rate in E. destruct (pay_count _ _ _); [|discriminate]. cbn [bind] in E.
      cbn [pm_truthy pm_source] in E. destruct (src_truthy (om_forward m)).
      - destruct (offset _ _); [|discriminate]. cbn [bind] in E. destruct (source_rate _ _ _); [|discriminate].
        cbn [bind] in E. destruct (number _); [|discriminate]. cbn [bind] in E. injection E as <-.
        intros k [<-|[<-|[<-|[<-|[]]]]]; reflexivity.
      - cbn [bind] in E. destruct (number _); [|discriminate]. cbn [bind] in E. injection E as <-.
        intros k [<-|[<-|[<-|[<-|[]]]]]; reflexivity. }
    destruct (d_rate_fields DS DC _ _ _ _ E) as (yf & f & c & PC & RR & NO & FR & ST & EN & Y & C & REST).
    cbn [pm_truthy pm_source] in REST. rewrite Y, C, NO in H.
    destruct (src_truthy (om_forward m)).
    2:{ destruct REST as (_ & _ & FX & _). rewrite FX in H. discriminate. }
    destruct REST as (x & OF & SR & FW & FX & _). rewrite FX in H. apply moved_offset in OF.
    assert (KF := KEYS KFloorlet). assert (KC := KEYS KCaplet).
    assert (KF' := KEYS KFloorletStrike). assert (KC' := KEYS KCapletStrike). cbn in KF, KC, KF', KC'.
    assert (KF1 := KF (or_introl eq_refl)). assert (KC1 := KC (or_intror (or_intror (or_introl eq_refl)))).
    clear KF KC KF' KC'.
    destruct floor as [k|]; cbn [bind] in H.
    - destruct (d_model fuel flr m x (Some k)) as [e1|]; [|discriminate]. cbn [bind] in H.
      destruct (get_put_value fuel flr m x (Some k)) as [v|] eqn:V; [|discriminate]. cbn [bind] in H.
      destruct cap as [k'|]; cbn [bind] in H.
      + destruct (d_model fuel flr m x (Some k')) as [e2|]; [|discriminate]. cbn [bind] in H.
        destruct (get_call_value fuel flr m x (Some k')) as [v'|] eqn:V'; [|discriminate]. cbn [bind] in H.
        apply ok_inj in H. subst e.
        exists ((c + f) * yf * rp_amount r + v * (yf * rp_amount r) - v' * (yf * rp_amount r)),
               (rp_amount r), yf, c, f, x, (v * (yf * rp_amount r)), (v' * (yf * rp_amount r)).
        unfold entry. repeat rewrite !dget_dset, !dupdate_get by (cbn; repeat constructor; cbn; intuition discriminate).
        repeat rewrite dget_cons. rewrite !dget_nil. cbn [key_beq internal_nat_beq]. rewrite ?NO, ?Y, ?FR, ?FW, ?FX.
        repeat (split; [reflexivity|]). split; [left; reflexivity|]. split; [left; reflexivity|].
        split; [ring|]. split; [reflexivity|]. split; [exact RR|]. split; [exact OF|].
        split; (split; [reflexivity|]); eexists; (split; [eassumption|ring]).
      + apply ok_inj in H. subst e.
        exists ((c + f) * yf * rp_amount r + v * (yf * rp_amount r) - 0),
               (rp_amount r), yf, c, f, x, (v * (yf * rp_amount r)), 0.
        unfold entry. repeat rewrite !dget_dset, !dupdate_get by (cbn; repeat constructor; cbn; intuition discriminate).
        repeat rewrite dget_cons. rewrite !dget_nil. cbn [key_beq internal_nat_beq]. rewrite ?NO, ?Y, ?FR, ?FW, ?FX, ?KC1.
        repeat (split; [reflexivity|]). split; [left; reflexivity|]. split; [right; split; reflexivity|].
        split; [ring|]. split; [reflexivity|]. split; [exact RR|]. split; [exact OF|].
        split; [|reflexivity]. split; [reflexivity|]. eexists; (split; [eassumption|ring]).
    - destruct cap as [k'|]; cbn [bind] in H.
      + destruct (d_model fuel flr m x (Some k')) as [e2|]; [|discriminate]. cbn [bind] in H.
        destruct (get_call_value fuel flr m x (Some k')) as [v'|] eqn:V'; [|discriminate]. cbn [bind] in H.
        apply ok_inj in H. subst e.
        exists ((c + f) * yf * rp_amount r + 0 - v' * (yf * rp_amount r)),
               (rp_amount r), yf, c, f, x, 0, (v' * (yf * rp_amount r)).
        unfold entry. repeat rewrite !dget_dset, !dupdate_get by (cbn; repeat constructor; cbn; intuition discriminate).
        repeat rewrite dget_cons. rewrite !dget_nil. cbn [key_beq internal_nat_beq]. rewrite ?NO, ?Y, ?FR, ?FW, ?FX, ?KF1.
        repeat (split; [reflexivity|]). split; [right; split; reflexivity|]. split; [left; reflexivity|].
        split; [ring|]. split; [reflexivity|]. split; [exact RR|]. split; [exact OF|].
        split; [reflexivity|]. split; [reflexivity|]. eexists; (split; [eassumption|ring]).
      + apply ok_inj in H. subst e.
        exists ((c + f) * yf * rp_amount r + 0 - 0), (rp_amount r), yf, c, f, x, 0, 0.
        unfold entry. rewrite !dget_dset. cbn [key_beq]. rewrite ?NO, ?Y, ?FR, ?FW, ?FX, ?KF1, ?KC1.
        repeat (split; [reflexivity|]). split; [right; split; reflexivity|]. split; [right; split; reflexivity|].
        split; [ring|]. split; [reflexivity|]. split; [exact RR|]. split; [exact OF|]. split; reflexivity.
  Qed.
End Values.
Print Assumptions C77_pay_rec.
Print Assumptions C77_rate.
Print Assumptions C77_option.
Print Assumptions C77_strategy.
Print Assumptions C77_contingent.

(** the hypotheses are met: a coupon with forward rate, and a short put *)
Example C77_rate_instance : exists e,
  details (DS := FloatDates (T:=R)) (DC := []) 0 None
    (PRate (mkRP (5/4) (3/2) 100 DcDefault (Some (FP (1/4))) (Some (1/200)))) (PmSource (FwNum (1/100))) = Ok e /\
  dget e KCashflow = Some (VNum (3/8)) /\ dget e KFixing = Some (VDate 1) /\
  dget e KYearFraction = Some (VNum (1/4)).
Proof.
  eexists. unfold details, d_rate. cbn [rp_count rp_start rp_end rp_fixing rp_amount rp_rate pm_truthy src_truthy
    pm_source pay_count d_yf FloatDates bind offset p_truthy].
  rewrite (proj2 (ntruthy_true (1/100))) by lra. cbn [bind]. rewrite (proj2 (ntruthy_true (1/4))) by lra.
  cbn [d_sub FloatDates bind source_rate fst snd number]. split; [reflexivity|].
  rewrite dget_dset_same, dget_dset_other by discriminate. rn. split; [do 2 f_equal; lra|].
  rewrite dget_dset_other by discriminate. rewrite !dupdate_get by (cbn; repeat constructor; cbn; intuition discriminate).
  repeat rewrite dget_cons. cbn [key_beq]. rewrite ?dget_nil. rn. split; do 2 f_equal; lra.
Qed.
Example C77_option_instance : exists e,
  details (DS := FloatDates (T:=R)) (DC := []) 0 None (POption (mkOP 1 (-10) (Some 3) true))
    (PmModel (mkOM FIntrinsic default_gconst (Some 0) (FwNum 1) (VoNum (1/10)) None false)) = Ok e /\
  dget e KCashflow = Some (VNum (-20)) /\ dget e KForward = Some (VNum 1).
Proof.
  set (m := mkOM _ _ _ _ _ _ _).
  assert (OD : om_details (DS := FloatDates) (DC := []) 0 None m 1 (Some 3) = Ok (mkOD (Some 1) 3 (Some (1/10)) (1 - 0))).
  { unfold om_details, m. cbn [om_forward om_vol fw_value vo_value].
    repeat rewrite (proj2 (ntruthy_true _)) by lra. cbn [bind]. reflexivity. }
  assert (GP : get_put_value (DS := FloatDates) (DC := []) 0 None m 1 (Some 3) = Ok 2).
  { unfold get_put_value. rewrite OD. cbn [bind od_forward number].
    assert (DG : degenerate (mkOD (Some 1) 3 (Some (1/10)) (1 - 0)) = false).
    { unfold degenerate. cbn [od_vol od_time]. rewrite (proj2 (ntruthy_true (1/10))) by lra.
      rewrite (proj2 (ntruthy_true (1 - 0))) by lra. reflexivity. }
    rewrite DG. unfold m. cbn. f_equal. rewrite nmax_Rmax, Rmax_right by lra. lra. }
  destruct (d_model_value FloatDates [] _ _ _ _ _ _ OD) as (e & E & ND & C & _ & _ & _ & _ & _ & FW & _).
  eexists. split; [unfold details, d_option; cbn [op_put op_expiry op_strike op_amount]; rewrite GP; cbn [bind];
    rewrite E; reflexivity|].
  rewrite !dupdate_get by exact ND. rewrite C, FW, dget_dset_same. split; [|reflexivity]. do 2 f_equal. rn. lra.
Qed.

(** * C78: the table of a cash flow list *)
Section Table.
  Context {D P : Type} (DS : DateSys R D P) (DC : DayCounts R D).
  Implicit Types (l : cflist R D P).

  Lemma row_shows fuel flr l d e : row_dict fuel flr l d = Ok e ->
    forall k v, dget e k = Some v <-> shows fuel flr l d k v.
  Proof.
    unfold row_dict, shows, cf_flow, cf_payoff. fold (own_forward l).
    destruct (assoc d_eqb d (cf_flows l)) as [[x|p]|].
    - intros [= <-] k v. unfold dget. destruct k; cbn; split; try easy; try congruence; try (intros [= <-]; auto); intros [_ ->]; reflexivity.
    - assert (C : (exists f, p = PCall f) \/ (exists e0, details fuel flr p (PmSource (own_forward l)) = Ok e0 /\
                   forall e, (e1 <- details fuel flr p (PmSource (own_forward l)) ;; Ok (dset KPayDate (VDate d) e1))%res = Ok e ->
                   e = dset KPayDate (VDate d) e0) \/
                 (exists er, details fuel flr p (PmSource (own_forward l)) = Err er)).
      { destruct (details fuel flr p (PmSource (own_forward l))) as [e0|er].
        - right. left. exists e0. split; [reflexivity|]. cbn. now intros e1 [= <-].
        - right. right. eauto. }
      intros H. assert (NC : forall f, p <> PCall f) by (intros f ->; discriminate H).
      destruct C as [[f ->]|[(e0 & E0 & G)|[er E0]]]; [now destruct (NC f)| |].
      + assert (E1 : e = dset KPayDate (VDate d) e0) by (destruct p; try (apply G; exact H); now destruct (NC f)).
        subst e. intros k v. rewrite dget_dset.
        destruct k; cbn [key_beq]; try (split; [intros Q; exists e0; now split|intros (e' & Q & R); congruence]).
        split; [now intros [= <-]|now intros ->].
      + destruct p; rewrite ?E0 in H; discriminate H.
    - intros [= <-] k v. unfold dget. destruct k; cbn; split; try easy; try congruence; try (intros [= <-]; auto); intros [_ ->]; reflexivity.
  Qed.

  (** one row per payment date; the header names columns of the class, each once; a cell
      shows the entry named by its header, or the empty string if there is none; rows may be
      shorter than the header, but every entry of a date which is a column is shown *)
  Theorem C78_rows : forall fuel flr l columns h rs,
    table fuel flr l columns = Ok (h, rs) ->
    length rs = length (cf_domain l) /\ NoDup h /\ incl h columns /\
    forall i d r, nth_error (cf_domain l) i = Some d -> nth_error rs i = Some r ->
      (length r <= length h)%nat /\
      (forall j v, nth_error r j = Some v -> exists k, nth_error h j = Some k /\
         (shows fuel flr l d k v \/ (v = VEmpty /\ forall v', ~ shows fuel flr l d k v'))) /\
      (forall k v, In k columns -> shows fuel flr l d k v ->
         exists j, nth_error h j = Some k /\ nth_error r j = Some v).
  Proof.
    intros fuel flr l columns h rs H.
    destruct (rows_spec DS DC _ _ _ _ _ _ _ _ (NoDup_nil _) H) as (LEN & ND & (g & EG & IG) & ROW).
    cbn in EG. subst g. split; [exact LEN|]. split; [exact ND|]. split; [exact IG|].
    intros i d r I J. destruct (ROW i d r I J) as (e & h1 & g & E & EH & ER & C & _).
    assert (SH := row_shows _ _ _ _ _ E).
    assert (LR : length r = length h1) by (subst r; unfold row; apply map_length).
    split; [rewrite EH, app_length; lia|]. split.
    - intros j v Q. assert (LJ : (j < length h1)%nat) by (rewrite <- LR; apply nth_error_Some; congruence).
      destruct (nth_error h1 j) as [k|] eqn:K; [|apply nth_error_None in K; lia].
      exists k. split; [rewrite EH, nth_error_app1; auto|].
      rewrite ER, (row_nth _ _ _ _ K) in Q. injection Q as <-.
      destruct (dget e k) as [v|] eqn:V; [left; now apply SH|right].
      split; [reflexivity|]. intros v' S. apply SH in S. congruence.
    - intros k v K S. apply SH in S. assert (IN : In k h1) by (apply C; [exact K|congruence]).
      apply In_nth_error in IN. destruct IN as [j Q]. exists j. split.
      + rewrite EH, nth_error_app1; auto. apply nth_error_Some. congruence.
      + now rewrite ER, (row_nth _ _ _ _ Q), S.
  Qed.

  (** the tables of all library classes of lists without a payoff model start with the
      cash flow and the pay date *)
  Theorem C78_amounts : forall fuel flr l columns h rs,
    (forall a, cf_attr l <> LModel a) -> In KCashflow columns -> In KPayDate columns ->
    table fuel flr l columns = Ok (h, rs) ->
    forall i d r, nth_error (cf_domain l) i = Some d -> nth_error rs i = Some r ->
      exists x j j', cf_get fuel flr l d = Ok x /\
        nth_error h j = Some KCashflow /\ nth_error r j = Some (VNum x) /\
        nth_error h j' = Some KPayDate /\ nth_error r j' = Some (VDate d).
  Proof.
    intros fuel flr l columns h rs NM IC IP H i d r I J.
    destruct (C78_rows _ _ _ _ _ _ H) as (_ & _ & _ & ROW). destruct (ROW i d r I J) as (_ & _ & ALL).
    destruct (ALL KPayDate (VDate d) IP eq_refl) as (j' & HJ' & RJ').
    assert (X : exists x, cf_get fuel flr l d = Ok x /\ shows fuel flr l d KCashflow (VNum x)).
    { destruct (rows_spec DS DC _ _ _ _ _ _ _ _ (NoDup_nil _) H) as (_ & _ & _ & R2).
      destruct (R2 i d r I J) as (e & _ & _ & E & _).
      unfold cf_get, cf_flow, shows, cf_payoff, row_dict, cf_flow in *.
      assert (A : attr_model (cf_attr l) = PmSource (own_forward l)).
      { unfold own_forward. destruct (cf_attr l) eqn:Q; auto. now destruct (NM a). }
      rewrite A. fold (own_forward l) in E.
      destruct (assoc d_eqb d (cf_flows l)) as [[x|p]|].
      - exists x. cbn. auto.
      - assert (NC : forall f, p <> PCall f) by (intros f ->; discriminate E).
        destruct (C77_cashflow DS DC fuel flr p (PmSource (own_forward l)) NC) as [OKS ERRS].
        destruct (pay fuel flr p (PmSource (own_forward l))) as [x|er] eqn:Q.
        + exists x. cbn [flow_value]. split; [exact Q|]. now apply OKS.
        + exfalso. assert (Z := proj1 (ERRS er) eq_refl).
          destruct p; rewrite ?Z in E; try discriminate E. 
      - exists 0. cbn. auto. }
    destruct X as (x & G & S). destruct (ALL KCashflow _ IC S) as (j & HJ & RJ).
    exists x, j, j'. auto.
  Qed.

  (** rate cash flow lists show all ten columns if there is a forward curve *)
  Theorem C78_rate_columns : forall fuel flr l s h rs,
    cf_attr l = LForward s -> src_truthy s = true -> cf_domain l <> [] ->
    (forall d, In d (cf_domain l) -> exists r, cf_payoff l d = Some (FlPay (PRate r))) ->
    table fuel flr l rate_columns = Ok (h, rs) ->
    h = [KCashflow; KPayDate; KNotional; KStart; KEnd; KYearFraction; KFixedRate; KForwardRate; KFixing; KTenor] /\
    forall i d r, nth_error (cf_domain l) i = Some d -> nth_error rs i = Some r ->
      exists p tau c f x tenor,
        cf_payoff l d = Some (FlPay (PRate p)) /\ cf_get fuel flr l d = Ok (rp_amount p * tau * (c + f)) /\
        r = [VNum (rp_amount p * tau * (c + f)); VDate d; VNum (rp_amount p); VDate (rp_start p);
             VDate (rp_end p); VNum tau; VNum c; VNum f; VDate x; tenor].
  Proof.
    intros fuel flr l s h rs AT TR NE ALLR H.
    assert (OWN : own_forward l = s) by (unfold own_forward; now rewrite AT).
    assert (RD : forall d e, In d (cf_domain l) -> row_dict fuel flr l d = Ok e ->
      exists p tau c f x tenor, cf_payoff l d = Some (FlPay (PRate p)) /\
        cf_get fuel flr l d = Ok (rp_amount p * tau * (c + f)) /\
        dget e KCashflow = Some (VNum (rp_amount p * tau * (c + f))) /\ dget e KPayDate = Some (VDate d) /\
        dget e KNotional = Some (VNum (rp_amount p)) /\ dget e KStart = Some (VDate (rp_start p)) /\
        dget e KEnd = Some (VDate (rp_end p)) /\ dget e KYearFraction = Some (VNum tau) /\
        dget e KFixedRate = Some (VNum c) /\ dget e KForwardRate = Some (VNum f) /\
        dget e KFixing = Some (VDate x) /\ dget e KTenor = Some tenor).
    { intros d e I E. destruct (ALLR d I) as [p PO]. unfold row_dict, cf_flow in E. unfold cf_payoff in PO.
      rewrite PO, AT in E. cbn [details] in E.
      destruct (d_rate fuel p (PmSource s)) as [e0|] eqn:DR; [|discriminate]. cbn [bind] in E. apply ok_inj in E. subst e.
      destruct (d_rate_fields DS DC _ _ _ _ DR) as (yf & f & c & _ & _ & NO & FR & ST & EN & Y & C & REST).
      cbn [pm_truthy pm_source] in REST. rewrite TR in REST. destruct REST as (x & _ & _ & FW & FX & TE).
      exists p, yf, c, f, x. eexists. split; [exact PO|].
      assert (CF : rp_amount p * yf * (c + f) = (c + f) * yf * rp_amount p) by ring.
      split.
      { unfold cf_get, cf_flow. rewrite PO, AT. cbn [flow_value attr_model].
        rewrite CF. apply (proj1 (C77_cashflow DS DC fuel flr (PRate p) (PmSource s) ltac:(discriminate))).
        exists e0. now split. }
      rewrite !dget_dset. cbn [key_beq]. rewrite CF. repeat (split; [assumption || reflexivity|]). exact TE. }
    unfold table in H. destruct (cf_domain l) as [|d0 ds] eqn:DOM; [easy|]. cbn [rows] in H.
    destruct (row_dict fuel flr l d0) as [e0|] eqn:E0; [|discriminate]. cbn [bind] in H.
    assert (EXT : extend rate_columns e0 [] =
      [KCashflow; KPayDate; KNotional; KStart; KEnd; KYearFraction; KFixedRate; KForwardRate; KFixing; KTenor]).
    { destruct (RD d0 e0 (or_introl eq_refl) E0) as (p & tau & c & f & x & te & _ & _ & G1 & G2 & G3 & G4 & G5 & G6 & G7 & G8 & G9 & G10).
      rewrite extend_all; [reflexivity|cbn; repeat constructor; cbn; intuition discriminate|].
      unfold rate_columns. intros k I. cbn in I. intuition (subst; congruence). }
    rewrite EXT in H. set (H0 := [KCashflow; KPayDate; KNotional; KStart; KEnd; KYearFraction; KFixedRate; KForwardRate; KFixing; KTenor]) in *.
    destruct (rows fuel flr l rate_columns ds H0) as [[h2 rs2]|] eqn:Q; [|discriminate]. cbn [bind fst snd] in H.
    injection H as <- <-.
    assert (ND0 : NoDup H0) by (unfold H0; repeat constructor; cbn; intuition discriminate).
    destruct (rows_spec DS DC _ _ _ _ _ _ _ _ ND0 Q) as (LEN & ND & (g & EG & IG) & ROW).
    assert (HH : h2 = H0).
    { destruct g as [|k g]; [now rewrite app_nil_r in EG|]. exfalso. rewrite EG in ND.
      assert (IK : In k H0) by (apply IG; now left). apply NoDup_remove_2 in ND. apply ND. apply in_or_app. now left. }
    split; [exact HH|].
    assert (ROWEQ : forall d e, In d (d0 :: ds) -> row_dict fuel flr l d = Ok e ->
      exists p tau c f x tenor,
        cf_payoff l d = Some (FlPay (PRate p)) /\ cf_get fuel flr l d = Ok (rp_amount p * tau * (c + f)) /\
        row e H0 = [VNum (rp_amount p * tau * (c + f)); VDate d; VNum (rp_amount p); VDate (rp_start p);
             VDate (rp_end p); VNum tau; VNum c; VNum f; VDate x; tenor]).
    { intros d e I E. destruct (RD d e I E) as (p & tau & c & f & x & te & PO & CG & G1 & G2 & G3 & G4 & G5 & G6 & G7 & G8 & G9 & G10).
      exists p, tau, c, f, x, te. split; [exact PO|]. split; [exact CG|].
      unfold row, H0. cbn [map]. now rewrite G1, G2, G3, G4, G5, G6, G7, G8, G9, G10. }
    intros [|i] d r I J; cbn in I, J.
    - injection I as <-. injection J as <-. apply ROWEQ; [now left|exact E0].
    - destruct (ROW i d r I J) as (e & h1 & g' & E & EH & ER & _ & C5).
      assert (H1 : h1 = H0).
      { rewrite HH in EH. destruct g' as [|k g']; [now rewrite app_nil_r in EH|]. exfalso.
        assert (IK : In k H0) by (rewrite EH; apply in_or_app; right; now left).
        rewrite EH in ND0. apply NoDup_remove_2 in ND0. apply ND0. apply in_or_app. left. now apply C5. }
      subst r h1. apply ROWEQ; [right; now apply nth_error_In in I|exact E].
  Qed.

  (** * what the table of leg lists and of option lists shows *)
  (** the table of a leg list shows zero at every date, whatever its legs pay *)
  Theorem C78_legs_zero : forall fuel flr legs ll, legs_new legs = Ok ll ->
    exists h, ll_table fuel flr ll = Ok (h, map (fun d => [VNum 0; VDate d]) (ll_domain ll)).
  Proof.
    intros fuel flr legs ll H. unfold legs_new in H.
    destruct (min_origin (map cf_origin legs)) as [o|]; [|discriminate]. cbn [bind] in H.
    set (dom := date_set (concat (map cf_domain legs))) in H.
    destruct (cf_new dom (Many (repeat (FlNum n0) (length dom))) o LNone false) as [base|] eqn:B; [|discriminate].
    cbn [bind] in H. apply ok_inj in H. subst ll. unfold ll_table, ll_domain. cbn [ll_base].
    assert (ATT : cf_domain base = dom /\ forall d, cf_flow base d = FlNum 0).
    { destruct (cf_new_inv _ _ _ _ _ _ B) as (_ & ->). split; [reflexivity|].
      intros d. unfold cf_flow. cbn [cf_flows spread_arg].
      assert (Z : forall (kvs acc : list (D * flow R D P)),
                (forall k f, In (k, f) acc -> f = FlNum 0) -> (forall k f, In (k, f) kvs -> f = FlNum 0) ->
                forall k f, In (k, f) (fold_left (fun d kv => assoc_set d_eqb (fst kv) (snd kv) d) kvs acc) -> f = FlNum 0).
      { induction kvs as [|[k f] kvs IH]; cbn; intros acc A C; [exact A|]. apply IH; [|intros; eapply C; eauto].
        clear IH. intros k' f' I. assert (F : f = FlNum 0) by (eapply C; left; reflexivity). subst f.
        induction acc as [|[a b] acc IA]; cbn in I.
        - destruct I as [[= <- <-]|[]]; reflexivity.
        - destruct (d_eqb a k); cbn in I.
          + destruct I as [[= <- <-]|I]; [reflexivity|]. eapply A. right. exact I.
          + destruct I as [[= <- <-]|I]; [eapply A; now left|]. apply IA; [|exact I]. intros; eapply A; right; eauto. }
      destruct (assoc d_eqb d (dict_of d_eqb (combine dom (repeat (FlNum n0) (length dom))))) as [f|] eqn:Q; [|reflexivity].
      assert (IN : exists k, In (k, f) (dict_of d_eqb (combine dom (repeat (FlNum (n0 : R)) (length dom))))).
      { clear -Q. induction (dict_of d_eqb _) as [|[a b] L IH]; cbn in Q; [discriminate|].
        destruct (d_eqb a d); [injection Q as <-; exists a; now left|]. destruct (IH Q) as [k K]. exists k. now right. }
      destruct IN as [k K]. unfold dict_of in K. eapply Z; [| |exact K]; [intros ? ? []|].
      intros k' f' I. apply in_combine_r in I. now apply repeat_spec in I. }
    destruct ATT as [DM FL]. unfold table. 
    assert (G : forall ds h, (h = [] \/ h = base_columns) ->
      rows fuel flr base base_columns ds h =
      Ok (match ds with [] => h | _ => base_columns end, map (fun d => [VNum 0; VDate d]) ds)).
    { induction ds as [|d ds IH]; intros h HH; [reflexivity|]. cbn [rows]. unfold row_dict. rewrite FL. cbn [bind].
      replace (extend base_columns [(KCashflow, VNum 0); (KPayDate, VDate d)] h) with base_columns
        by (destruct HH as [->| ->]; reflexivity).
      rewrite IH by auto. cbn [bind fst snd map]. do 2 f_equal. now destruct ds. }
    rewrite G by auto. eexists. reflexivity.
  Qed.

  (** the table of a list of options shows zero at every date, whatever the payoff model *)
  Theorem C78_options_zero : forall fuel flr l a, cf_attr l = LModel a ->
    (forall d, In d (cf_domain l) -> exists o, cf_payoff l d = Some (FlPay (POption o))) ->
    exists h rs, table fuel flr l option_columns = Ok (h, rs) /\
      forall i d r, nth_error (cf_domain l) i = Some d -> nth_error rs i = Some r ->
        exists o, cf_payoff l d = Some (FlPay (POption o)) /\
        r = [VNum 0; VDate d; VLabel (if op_put o then LPut else LCall);
             VLabel (if Rlt_dec 0 (op_amount o) then LLong else LShort);
             VNum (op_amount o); match op_strike o with Some k => VNum k | None => VNone end;
             VDate (op_expiry o)].
  Proof.
    intros fuel flr l a AT ALLO.
    set (H0 := [KCashflow; KPayDate; KPutCall; KLongShort; KNotional; KStrike; KExpiry]).
    assert (G : forall ds h, (forall d, In d ds -> exists o, cf_payoff l d = Some (FlPay (POption o))) ->
      h = [] \/ h = H0 ->
      exists h' rs, rows fuel flr l option_columns ds h = Ok (h', rs) /\
      forall i d r, nth_error ds i = Some d -> nth_error rs i = Some r ->
        exists o, cf_payoff l d = Some (FlPay (POption o)) /\
        r = [VNum 0; VDate d; VLabel (if op_put o then LPut else LCall);
             VLabel (if Rlt_dec 0 (op_amount o) then LLong else LShort);
             VNum (op_amount o); match op_strike o with Some k => VNum k | None => VNone end;
             VDate (op_expiry o)]).
    { induction ds as [|d ds IH]; intros h A HH; cbn [rows].
      - exists h, []. split; [reflexivity|]. intros [|i]; discriminate.
      - destruct (A d (or_introl eq_refl)) as [o O]. unfold row_dict, cf_flow. unfold cf_payoff in O. rewrite O, AT.
        cbn [details d_option src_truthy bind].
        match goal with |- context [extend option_columns ?z h] =>
          replace (extend option_columns z h) with H0 by (destruct HH as [->| ->]; reflexivity); set (E := z) end.
        destruct (IH H0) as (h' & rs & Q & R); [intros; apply A; now right|auto|].
        rewrite Q. cbn [bind fst snd]. exists h'. eexists. split; [reflexivity|].
        intros [|i] d' r I J; cbn in I, J.
        + injection I as <-. injection J as <-. exists o. split; [exact O|].
          cbn. unfold Rltb. destruct (Rlt_dec 0 (op_amount o)); reflexivity.
        + now apply (R i). }
    apply G; auto.
  Qed.
End Table.

(** a leg list paying 5 at date 1 whose table says 0 *)
Theorem C78_legs_refuted : exists leg ll,
  cf_new (DS := FloatDates (T:=R)) (P := fperiod R) [1] (One (FlNum 5)) None LNone false = Ok leg /\
  legs_new [leg] = Ok ll /\ ll_get (DC := []) 0 None ll 1 = Ok 5 /\
  ll_table (DC := []) 0 None ll = Ok ([KCashflow; KPayDate], [[VNum 0; VDate 1]]).
Proof.
  eexists. eexists. split; [reflexivity|].
  assert (E : Reqb 1 1 = true) by (unfold Reqb; destruct Req_EM_T; lra).
  assert (L : Rltb 1 1 = false) by (unfold Rltb; destruct Rlt_dec; lra).
  split; [reflexivity|]. split.
  - unfold ll_get. cbn. rewrite E. cbn. unfold cf_get, cf_flow. cbn. rewrite E. cbn. f_equal. rn. lra.
  - unfold ll_table, table, row_dict. cbn. unfold row_dict, cf_flow. cbn. rewrite E. reflexivity.
Qed.

(** a list of options with a payoff model which expects 10 at date 1 and whose table says 0 *)
Theorem C78_options_refuted : exists l,
  optionlist_new (DS := FloatDates (T:=R)) [1] (One 10) (One (Some 3)) (One false) None None (Some 0)
    (PmModel (mkOM FIntrinsic default_gconst (Some 0) (FwNum 4) (VoNum (1/10)) None false)) = Ok l /\
  cf_get (DC := []) 0 None l 1 = Ok 10 /\
  exists h r, table (DC := []) 0 None l option_columns = Ok (KCashflow :: h, [VNum 0 :: r]).
Proof.
  eexists. split; [reflexivity|].
  assert (E : Reqb 1 1 = true) by (unfold Reqb; destruct Req_EM_T; lra). split.
  - set (m := mkOM _ _ _ _ _ _ _).
    assert (OD : om_details (DS := FloatDates) (DC := []) 0 None m 1 (Some 3) = Ok (mkOD (Some 4) 3 (Some (1/10)) (1 - 0))).
    { unfold om_details, m. cbn [om_forward om_vol fw_value vo_value].
      repeat rewrite (proj2 (ntruthy_true _)) by lra. cbn [bind]. reflexivity. }
    assert (GP : get_call_value (DS := FloatDates) (DC := []) 0 None m 1 (Some 3) = Ok 1).
    { unfold get_call_value. rewrite OD. cbn [bind od_forward number].
      assert (DG : degenerate (mkOD (Some 4) 3 (Some (1/10)) (1 - 0)) = false).
      { unfold degenerate. cbn [od_vol od_time]. rewrite (proj2 (ntruthy_true (1/10))) by lra.
        rewrite (proj2 (ntruthy_true (1 - 0))) by lra. reflexivity. }
      rewrite DG. unfold m. cbn. f_equal. rewrite nmax_Rmax, Rmax_left by lra. lra. }
    unfold cf_get, cf_flow. cbn [cf_flows cf_attr dict_of fold_left combine fst snd assoc_set assoc attr_model spread_arg length repeat].
    change (d_eqb 1 1) with (Reqb 1 1). rewrite E. cbn [flow_value pay]. unfold option_cashflow.
    cbn [op_put op_expiry op_strike op_amount]. rewrite GP. cbn [bind]. f_equal. rn. lra.
  - unfold table, option_columns. cbn [cf_domain rows]. unfold row_dict, cf_flow.
    cbn [cf_flows cf_attr dict_of fold_left combine fst snd assoc_set assoc spread_arg length repeat].
    change (d_eqb 1 1) with (Reqb 1 1). rewrite E. cbn [details]. unfold d_option. cbn [src_truthy bind].
    eexists. eexists. reflexivity.
Qed.

(** the hypotheses of the table theorems are met by a list of coupons with a forward curve *)
Example C78_rate_instance : exists l h rs,
  ratelist_new (DS := FloatDates (T:=R)) [1; 2] (One 100) (Some 0) DcDefault None None (1/100) (FwNum (1/100)) = Ok l /\
  table (DC := []) 0 None l rate_columns = Ok (h, rs) /\ cf_attr l = LForward (FwNum (1/100)) /\
  src_truthy (FwNum (D:=R) (P:=fperiod R) (1/100)) = true /\
  (forall d, In d (cf_domain l) -> exists r, cf_payoff l d = Some (FlPay (PRate r))) /\ length rs = 2%nat.
Proof.
  assert (E1 : Reqb 1 1 = true) by (unfold Reqb; destruct Req_EM_T; lra).
  assert (E2 : Reqb 2 2 = true) by (unfold Reqb; destruct Req_EM_T; lra).
  assert (E3 : Reqb 1 2 = false) by (unfold Reqb; destruct Req_EM_T; lra).
  assert (E4 : Reqb 2 1 = false) by (unfold Reqb; destruct Req_EM_T; lra).
  assert (TR : Reqb (1/100) 0 = false) by (unfold Reqb; destruct Req_EM_T; lra).
  assert (NEW : exists l,
    ratelist_new (DS := FloatDates (T:=R)) [1; 2] (One 100) (Some 0) DcDefault None None (1/100) (FwNum (1/100)) = Ok l /\
    cf_domain l = [1; 2] /\ cf_attr l = LForward (FwNum (1/100)) /\
    forall d, In d [1; 2] -> exists r, assoc d_eqb d (cf_flows l) = Some (FlPay (PRate r)) /\
      rp_count r = DcDefault /\ rp_fixing r = None /\ rp_rate r = Some (1/100)).
  { eexists. split; [reflexivity|]. split; [reflexivity|]. split; [reflexivity|].
    intros d [<-|[<-|[]]]; cbn; rewrite ?E3, ?E4; cbn; rewrite ?E1, ?E2, ?E3, ?E4; eexists; split; reflexivity || auto. }
  destruct NEW as (l & NEW & DOM & AT & PO). exists l.
  assert (RW : forall ds h, incl ds [1; 2] -> exists h' rs,
      rows (DC := []) 0 None l rate_columns ds h = Ok (h', rs) /\ length rs = length ds).
  { induction ds as [|d ds IH]; intros h I; [now exists h, []|]. cbn [rows].
    destruct (PO d (I d (or_introl eq_refl))) as (r & Q & C & F & K). unfold row_dict, cf_flow. rewrite Q, AT.
    cbn [details]. unfold d_rate. rewrite C, F, K. cbn [bind pm_truthy src_truthy].
    rewrite (proj2 (ntruthy_true (1/100))) by lra. cbn [offset bind pm_source source_rate number]. change (pay_count DcDefault (rp_start r) (rp_end r)) with (Ok (rp_end r - rp_start r) : res R). cbn [bind fst snd].
    match goal with |- context [extend ?a ?b ?c] => destruct (IH (extend a b c)) as (h' & rs & E & L) end.
    { intros z Z. apply I. now right. }
    rewrite E. cbn [bind]. do 2 eexists. split; [reflexivity|]. cbn [length snd]. now rewrite L. }
  destruct (RW [1; 2] [] (incl_refl _)) as (h & rs & E & L). exists h, rs.
  split; [exact NEW|]. split; [unfold table; rewrite DOM; exact E|]. split; [exact AT|].
  split; [cbn; unfold ntruthy; cbn; now rewrite TR|]. split; [|exact L].
  rewrite DOM. intros d I. destruct (PO d I) as (r & Q & _). exists r. exact Q.
Qed.
Print Assumptions C78_rows.
Print Assumptions C78_amounts.
Print Assumptions C78_rate_columns.
Print Assumptions C78_legs_zero.
Print Assumptions C78_options_zero.
Print Assumptions C78_legs_refuted.
Print Assumptions C78_options_refuted.

(** a list of numbers and functions has no table once there is a function in it: a
    function as flow has a value but no details *)
Theorem C78_function_refuted : forall {D P} (DS : DateSys R D P) (DC : DayCounts R D) fuel flr (l : cflist R D P) columns,
  (forall d, In d (cf_domain l) -> (exists x, cf_payoff l d = Some (FlNum x)) \/ (exists f, cf_payoff l d = Some (FlPay (PCall f)))) ->
  (exists d f, In d (cf_domain l) /\ cf_payoff l d = Some (FlPay (PCall f))) ->
  table fuel flr l columns = Err TypeError.
Proof.
  intros D P DS DC fuel flr l columns ALL [d [f [I F]]]. unfold table.
  assert (G : forall ds h, incl ds (cf_domain l) -> In d ds -> rows fuel flr l columns ds h = Err TypeError).
  { induction ds as [|x ds IH]; intros h INC HD; [destruct HD|]. cbn [rows]. unfold row_dict, cf_flow.
    destruct (ALL x (INC x (or_introl eq_refl))) as [[y E]|[g E]]; unfold cf_payoff in E, F; rewrite E; [|reflexivity].
    cbn [bind]. destruct HD as [->|HD]; [rewrite F in E; discriminate|].
    rewrite IH; [reflexivity| |exact HD]. intros z Z. apply INC. now right. }
  apply G; [apply incl_refl|exact I].
Qed.
Print Assumptions C78_function_refuted.
Example C78_function_instance : exists l : cflist R R (fperiod R),
  cf_new (DS:=FloatDates) [1] (One (FlPay (PCall (fun _ => Ok 5)))) None LNone false = Ok l /\
  table (DS:=FloatDates) (DC:=[]) 0 None l base_columns = Err TypeError.
Proof.
  eexists. split; [reflexivity|]. apply (C78_function_refuted FloatDates []).
  - intros d I. right. cbn in I. destruct I as [<-|[]]. unfold cf_payoff. cbn. unfold Reqb. destruct Req_EM_T; [eauto|lra].
  - exists 1. eexists. split; [left; reflexivity|]. unfold cf_payoff. cbn. unfold Reqb. destruct Req_EM_T; [reflexivity|lra].
Qed.
