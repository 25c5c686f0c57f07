(** Model of RateCurve (/repo/dcf/curves/curve.py:651-785) and its subclasses in
    interestratecurve.py, creditcurve.py and volatilitycurve.py.

    Methods that call themselves or loop take [fuel]; [OutOfFuel] for every fuel means
    that the Python call does not return (infinite loop or RecursionError).
    All classes use '1D' as [_TIME_SHIFT] (curve.py:363, volatilitycurve.py:24). *)
From Coq Require Import List Bool ZArith.
From Verif Require Import Num Py MCompounding MInterpolation MDates MCurve.
Import ListNotations.

Inductive cls :=
| CDiscountFactor | CZeroRate | CShortRate | CCashRate
| CSurvival | CDefault | CFlatIntensity | CHazard | CMargSurvival | CMargDefault
| CInstVol | CTermVol.

(** subclasses of InterestRateCurve, CreditCurve, ProbabilityCurve, VolatilityCurve *)
Definition is_interest (k : cls) : bool :=
  match k with CDiscountFactor | CZeroRate | CShortRate | CCashRate => true | _ => false end.
Definition is_vol (k : cls) : bool :=
  match k with CInstVol | CTermVol => true | _ => false end.
Definition is_credit (k : cls) : bool := negb (is_interest k) && negb (is_vol k).
Definition is_probability (k : cls) : bool :=
  match k with CSurvival | CDefault | CMargSurvival | CMargDefault => true | _ => false end.
Definition is_default (k : cls) : bool :=
  match k with CDefault | CMargDefault => true | _ => false end.

(** the class attributes [_INTERPOLATION]: interestratecurve.py:288,332,359,
    creditcurve.py:171,200,221,248,279,329; CashRateCurve and the volatility curves
    (which set [_interpolation] instead, volatilitycurve.py:25) inherit linear_scheme
    (curve.py:151) *)
Definition cls_interp (k : cls) : ispec :=
  match k with
  | CDiscountFactor | CSurvival | CDefault => log_linear_rate_scheme
  | CShortRate | CHazard => SBase Kconstant
  | CMargSurvival | CMargDefault => log_linear_scheme
  | CZeroRate | CFlatIntensity | CCashRate | CInstVol | CTermVol => linear_scheme
  end.

Section RateCurve.
  Context {T D P : Type} {N : Num T} {DS : DateSys T D P} {DC : DayCounts T D}.
  Open Scope num_scope.

  (** a RateCurve object: class, DateCurve attributes, [_forward_tenor], [_spread] *)
  Inductive rcurve :=
    mkR (k : cls) (c : dcurve T D) (tenor0 : option P)
        (spread : option (dcurve T D + rcurve)).

  Definition rc_cls (c : rcurve) := let (k, _, _, _) := c in k.
  Definition rc_dc (c : rcurve) := let (_, d, _, _) := c in d.
  Definition rc_tenor0 (c : rcurve) := let (_, _, t, _) := c in t.
  Definition rc_spread (c : rcurve) := let (_, _, _, s) := c in s.
  Definition rc_domain (c : rcurve) := dc_domain (rc_dc c).
  Definition rc_origin (c : rcurve) := dc_origin (rc_dc c).
  Definition rc_yf (c : rcurve) := dc_yf (rc_dc c).

  (** curve.py:674-678 [forward_tenor]; [_FORWARD_TENOR] is '3M' (curve.py:653) and '1Y'
      for credit curves (creditcurve.py:35) *)
  Definition rc_tenor (c : rcurve) : P :=
    match rc_tenor0 c with
    | Some p => p
    | None => p_str (if is_credit (rc_cls c) then Tyear else T3months)
    end.

  (** curve.py:748-752 [__call__] *)
  Fixpoint rc_call (c : rcurve) (x : D) : res T :=
    match c with
    | mkR _ d _ sp =>
        s <- match sp with
             | None => Ok n0
             | Some (inl e) => dc_val e x
             | Some (inr r) => rc_call r x
             end ;;
        v <- dc_val d x ;;
        Ok (v + s)
    end.

  (** [d is self.origin], [start == stop == self.origin] *)
  Definition at_origin (c : rcurve) (d : D) : bool :=
    match rc_origin c with Some o => d_is d o | None => false end.
  Definition both_origin (c : rcurve) (a b : D) : bool :=
    d_eqb a b && match rc_origin c with Some o => d_eqb b o | None => false end.
  (** [self.day_count(self.origin, d)] *)
  Definition rc_time (c : rcurve) (d : D) : res T := dc_time (rc_dc c) d.

  (** [min(d for d in self.domain if self.origin < d)], interestratecurve.py:319,
      creditcurve.py:187 *)
  Definition first_after_origin (c : rcurve) : res D :=
    match rc_origin c with
    | Some o => d_min (filter (fun d => d_ltb o d) (rc_domain c))
    | None => Err TypeError
    end.

  (** interestratecurve.py:424-429: simple compounding tenor by tenor *)
  Fixpoint cash_loop (fuel : nat) (c : rcurve) (current stop : D) (df : T) : res T :=
    match fuel with
    | O => Err OutOfFuel
    | S n =>
        next <- d_add current (rc_tenor c) ;;
        if d_ltb next stop then
          dc <- rc_yf c current next ;;
          v <- rc_call c current ;;
          f <- simple_compounding v dc ;;
          cash_loop n c next stop (df * f)
        else
          dc <- rc_yf c current stop ;;
          v <- rc_call c current ;;
          f <- simple_compounding v dc ;;
          Ok (df * f)
    end.

  (** [2 * float_info.min <= v] *)
  Definition not_tiny (v : T) : bool := n_ofZ 2 * n_fmin <=? v.

  (** creditcurve.py:289-302: marginal survival tenor by tenor *)
  Fixpoint marginal_loop (fuel : nat) (c : rcurve) (current stop : D) (df : T) : res T :=
    match fuel with
    | O => Err OutOfFuel
    | S n =>
        next <- d_add current (rc_tenor c) ;;
        if d_ltb next stop then
          v <- rc_call c current ;;
          marginal_loop n c next stop (df * (if not_tiny v then v else n0))
        else
          v <- rc_call c current ;;
          if not_tiny v then
            t <- rc_yf c current next ;;
            r <- continuous_rate v t ;;
            t' <- rc_yf c current stop ;;
            f <- continuous_compounding r t' ;;
            Ok (df * f)
          else Ok (df * n0)
    end.

  (** [_get_compounding_factor]: curve.py:770-776 (base), interestratecurve.py:311-314,
      creditcurve.py:177-182, 285-302; and [_get_compounding_rate]: curve.py:778-785
      (base), interestratecurve.py:316-323, 338-350, 365-378, 417-430,
      creditcurve.py:184-191, 227-239, 254-267 *)
  Fixpoint factor (fuel : nat) (c : rcurve) (start stop : D) {struct fuel} : res T :=
    match fuel with
    | O => Err OutOfFuel
    | S n =>
        let base :=
          if d_eqb start stop then Ok n1
          else r <- rate n c start stop ;;
               t <- rc_yf c start stop ;;
               continuous_compounding r t in
        match rc_cls c with
        | CDiscountFactor =>
            if at_origin c start then rc_call c stop
            else b <- rc_call c stop ;; a <- rc_call c start ;; ndiv b a
        | CSurvival | CDefault =>
            if at_origin c start then rc_call c stop
            else if d_eqb start stop then
              v <- rc_call c start ;; Ok (if not_tiny v then n1 else n0)
            else b <- rc_call c stop ;; a <- rc_call c start ;; ndiv b a
        | CMargSurvival | CMargDefault =>
            if d_eqb start stop then
              v <- rc_call c start ;; Ok (if not_tiny v then n1 else n0)
            else marginal_loop n c start stop n1
        | _ => base
        end
    end
  with rate (fuel : nat) (c : rcurve) (start stop : D) {struct fuel} : res T :=
    match fuel with
    | O => Err OutOfFuel
    | S n =>
        let base (stop : D) :=
          if d_eqb start stop then
            next <- d_add start (p_str Tday) ;; rate n c start next
          else df <- factor n c start stop ;;
               t <- rc_yf c start stop ;;
               continuous_rate df t in
        match rc_cls c with
        | CDiscountFactor | CSurvival | CDefault =>
            if both_origin c start stop then
              stop' <- first_after_origin c ;; base stop'
            else base stop
        | CZeroRate | CFlatIntensity =>
            if both_origin c start stop then
              match rc_origin c with Some o => rc_call c o | None => Err TypeError end
            else if at_origin c start then rc_call c stop
            else if d_eqb start stop then
              match rc_cls c with
              | CZeroRate => next <- d_add start (p_str Tday) ;; rate n c start next
              | _ => Err AttributeError (* no class attribute _time_shift *)
              end
            else
              vs <- rc_call c start ;; ts <- rc_time c start ;;
              ve <- rc_call c stop ;; te <- rc_time c stop ;;
              t <- rc_yf c start stop ;;
              ndiv (ve * te - vs * ts) t
        | CShortRate | CHazard =>
            if d_eqb start stop then rc_call c start
            else integrate n (rc_call c) (rc_yf c) (p_str Tday) start stop
        | CCashRate =>
            if d_eqb start stop then rc_call c start
            else df <- cash_loop n c start stop n1 ;;
                 t <- rc_yf c start stop ;;
                 continuous_rate df t
        | _ => base stop
        end
    end.

  (** * InterestRateCurve, interestratecurve.py:19-279.  Other classes do not have these
      methods: AttributeError. *)
  Definition interest_only {A} (c : rcurve) (m : res A) : res A :=
    if is_interest (rc_cls c) then m else Err AttributeError.
  Definition credit_only {A} (c : rcurve) (m : res A) : res A :=
    if is_credit (rc_cls c) then m else Err AttributeError.

  (** [get_discount_factor(start, stop)] 42-74 *)
  Definition get_discount_factor (fuel : nat) (c : rcurve) (start stop : D) : res T :=
    interest_only c (factor fuel c start stop).
  (** [get_discount_factor(start)] 72-73; None as start date is a TypeError *)
  Definition from_origin (c : rcurve) (m : D -> res T) : res T :=
    match rc_origin c with Some o => m o | None => Err TypeError end.
  Definition get_discount_factor1 (fuel : nat) (c : rcurve) (d : D) : res T :=
    from_origin c (fun o => get_discount_factor fuel c o d).
  (** [get_zero_rate] 76-112 *)
  Definition get_zero_rate (fuel : nat) (c : rcurve) (start stop : D) : res T :=
    interest_only c (rate fuel c start stop).
  Definition get_zero_rate1 (fuel : nat) (c : rcurve) (d : D) : res T :=
    from_origin c (fun o => get_zero_rate fuel c o d).

  (** 145-159 [_get_short_rate] and creditcurve.py:121-135 [_get_hazard_rate]: the flat
      rate between the neighbouring domain dates; ShortRateCurve 380-381 and
      HazardRateCurve 269-270 return the curve value; MarginalSurvivalProbabilityCurve
      304-319 differs after the last date *)
  Fixpoint short_rate (fuel : nat) (c : rcurve) (start : D) : res T :=
    match fuel with
    | O => Err OutOfFuel
    | S n =>
        match rc_cls c with
        | CShortRate | CHazard => rc_call c start
        | _ =>
            lo <- d_min (rc_domain c) ;;
            if d_ltb start lo then short_rate n c lo
            else
              hi <- d_max (rc_domain c) ;;
              if d_leb hi start then
                match rc_cls c with
                | CMargSurvival | CMargDefault =>
                    hi' <- d_add hi (p_str Tday) ;; rate n c hi hi'
                | _ => hi' <- d_sub hi (p_str Tday) ;; short_rate n c hi'
                end
              else
                previous <- d_max (filter (fun d => d_leb d start) (rc_domain c)) ;;
                follow <- d_min (filter (fun d => d_ltb start d) (rc_domain c)) ;;
                if negb (d_leb previous start && d_leb start follow) then Err AssertionError
                else if negb (d_ltb previous follow) then Err AssertionError
                else rate n c previous follow
        end
    end.
  (** [get_short_rate] 114-143 *)
  Definition get_short_rate (fuel : nat) (c : rcurve) (start : D) : res T :=
    interest_only c (short_rate fuel c start).

  (** 161-200 [_get_linear_short_rate] *)
  Definition linear_short_rate (fuel : nat) (c : rcurve) (start previous follow : D) : res T :=
    r <- get_short_rate fuel c previous ;;
    z <- get_zero_rate fuel c previous follow ;;
    d <- rc_yf c previous follow ;;
    a <- ndiv (n_ofZ 2 * (z - r)) d ;;
    t <- rc_yf c previous start ;;
    Ok (r + a * t).

  (** [get_cash_rate(start, stop, step)] 202-252 and CashRateCurve 432-441, where
      [super().get_cash_rate(start, stop)] calls the overriding method again *)
  Fixpoint cash_rate (fuel : nat) (c : rcurve) (start : D) (ostop : option D) (ostep : option P)
    : res T :=
    match fuel with
    | O => Err OutOfFuel
    | S n =>
        _ <- match ostop, ostep with
             | Some stop, Some step =>
                 if d_truthy stop && p_truthy step then
                   e <- d_add start step ;;
                   if d_eqb e stop then Ok tt else Err AssertionError
                 else Ok tt
             | _, _ => Ok tt
             end ;;
        stop <- match ostop with
                | Some stop => Ok stop
                | None => d_add start (match ostep with None => rc_tenor c | Some p => p end)
                end ;;
        match rc_cls c with
        | CCashRate =>
            e <- d_add start (rc_tenor c) ;;
            if d_eqb stop e then rc_call c start
            else cash_rate n c start (Some stop) None
        | _ =>
            df <- factor n c start stop ;;
            t <- rc_yf c start stop ;;
            simple_rate df t
        end
    end.
  Definition get_cash_rate (fuel : nat) (c : rcurve) (start : D) (stop : option D) (step : option P)
    : res T := interest_only c (cash_rate fuel c start stop step).

  (** [get_swap_annuity(date_list)] 254-279: pairs from [date_list[:-1]] and
      [date_list[0:]] *)
  Definition get_swap_annuity (fuel : nat) (c : rcurve) (dates : list D) : res T :=
    interest_only c
      (l <- mapM (fun se => df <- get_discount_factor1 fuel c (snd se) ;;
                            t <- rc_yf c (fst se) (snd se) ;; Ok (df * t))
                 (combine (removelast dates) dates) ;;
       Ok (nsum l)).

  (** * CreditCurve, creditcurve.py:55-119 *)
  Definition get_survival_prob (fuel : nat) (c : rcurve) (start stop : D) : res T :=
    credit_only c (factor fuel c start stop).
  Definition get_survival_prob1 (fuel : nat) (c : rcurve) (d : D) : res T :=
    from_origin c (fun o => get_survival_prob fuel c o d).
  Definition get_flat_intensity (fuel : nat) (c : rcurve) (start stop : D) : res T :=
    credit_only c (rate fuel c start stop).
  Definition get_flat_intensity1 (fuel : nat) (c : rcurve) (d : D) : res T :=
    from_origin c (fun o => get_flat_intensity fuel c o d).
  Definition get_hazard_rate (fuel : nat) (c : rcurve) (start : D) : res T :=
    credit_only c (short_rate fuel c start).

  (** * VolatilityCurve, volatilitycurve.py:59-69, 97-126; [flr] is the class attribute
      [FLOOR] of TerminalVolatilityCurve (74) *)
  Fixpoint terminal_vol (fuel : nat) (flr : option T) (c : rcurve) (start : D)
           (ostop : option D) : res T :=
    match fuel with
    | O => Err OutOfFuel
    | S n =>
        match rc_cls c with
        | CInstVol =>
            match ostop with
            | None => match rc_origin c with
                      | Some o => terminal_vol n flr c o (Some start)
                      | None => Err TypeError
                      end
            | Some stop =>
                if d_eqb start stop then rc_call c start
                else if d_ltb stop start then Ok n0
                else integrate n (rc_call c) (rc_yf c) (p_str Tday) start stop
            end
        | CTermVol =>
            match ostop with
            | None => rc_call c start
            | Some stop =>
                if match rc_origin c with Some o => d_eqb start o | None => false end
                then rc_call c stop
                else if d_eqb start stop then
                  next <- d_add start (p_str Tday) ;;
                  terminal_vol n flr c start (Some next)
                else if d_ltb stop start then Ok n0
                else
                  ts <- rc_time c start ;; vs <- rc_call c start ;;
                  te <- rc_time c stop ;; ve <- rc_call c stop ;;
                  t <- rc_yf c start stop ;;
                  var <- ndiv (te * npow ve 2 - ts * npow vs 2) t ;;
                  if (var <? n0) && match flr with None => true | _ => false end
                  then Err ZeroDivisionError
                  else nsqrt (match flr with Some f => nmax var (npow f 2) | None => var end)
            end
        | _ => Err AttributeError
        end
    end.
  Definition instantaneous_vol (fuel : nat) (flr : option T) (c : rcurve) (start : D) : res T :=
    match rc_cls c with
    | CInstVol => rc_call c start
    | CTermVol => next <- d_add start (p_str Tday) ;; terminal_vol fuel flr c start (Some next)
    | _ => Err AttributeError
    end.

  (** * Construction *)
  (** creditcurve.py:145-148: clamping in ProbabilityCurve.__init__, after 206-209 and
      335-338 for the default probability classes *)
  Definition clamp (d : T) : T := nmax n_fmin (nmin d (n1 - n_fmin)).
  Definition prepare_data (k : cls) (data : list T) : res (list T) :=
    if is_probability k then
      let data := if is_default k then map (fun d => n1 - d) data else data in
      let data := map clamp data in
      if forallb ntruthy data then Ok data else Err ValueError
    else Ok data.

  (** curve.py:693-746 [__init__] with lists *)
  Definition rc_new (k : cls) (domain : list D) (data : list T) (i : option ispec)
             (origin : option D) (count : dcspec T D) (tenor : option P) : res rcurve :=
    data <- prepare_data k data ;;
    c <- dc_new (cls_interp k) domain data i origin count ;;
    Ok (mkR k c tenor None).

  (** the static methods [_get_storage_value] of all classes *)
  Definition storage_value (fuel : nat) (flr : option T) (k : cls) (other : rcurve) (x : D) : res T :=
    match k with
    | CDiscountFactor => get_discount_factor1 fuel other x
    | CZeroRate => get_zero_rate1 fuel other x
    | CShortRate => get_short_rate fuel other x
    | CCashRate => get_cash_rate fuel other x None None
    | CSurvival | CDefault => get_survival_prob1 fuel other x
    | CFlatIntensity => get_flat_intensity1 fuel other x
    | CHazard => get_hazard_rate fuel other x
    | CMargSurvival | CMargDefault =>
        e <- d_add x (rc_tenor other) ;; get_survival_prob fuel other x e
    | CInstVol => instantaneous_vol fuel flr other x
    | CTermVol => terminal_vol fuel flr other x None
    end.

  (** curve.py:729-746: [cls(domain, other)]; [kwargs] (154-164) evaluates the other
      curve on its domain (in Python only if origin or day count are not given) *)
  Definition rc_cast_on (fuel : nat) (flr : option T) (k : cls) (domain : list D) (other : rcurve)
             (i : option ispec) (origin : option D) (count : dcspec T D) (tenor : option P)
    : res rcurve :=
    data <- mapM (storage_value fuel flr k other) domain ;;
    _ <- mapM (rc_call other) (rc_domain other) ;;
    c <- dc_new (cls_interp k) domain data i
           (origin_or origin (dc_origin0 (rc_dc other)))
           (dc_or count (dc_kwarg (dc_count (rc_dc other)))) ;;
    Ok (mkR k c tenor None).

  (** interestratecurve.py:409-412: [while origin < x: new_domain.append(x); x -= tenor] *)
  Fixpoint step_back (fuel : nat) (origin x : D) (tenor : P) : res (list D) :=
    match fuel with
    | O => Err OutOfFuel
    | S n => if d_ltb origin x then
               x' <- d_sub x tenor ;;
               l <- step_back n origin x' tenor ;;
               Ok (x :: l)
             else Ok []
    end.

  Definition date_set (l : list D) : list D := sorted_set d_ltb d_eqb l.

  (** the constructors called as [cls(other, ...)]: interestratecurve.py:294-309, 395-415,
      creditcurve.py:41-53, 141-162, volatilitycurve.py:40-57, 80-95, and curve.py:722-728
      for the other classes *)
  Definition rc_cast (fuel : nat) (flr : option T) (k : cls) (other : rcurve)
             (i : option ispec) (origin : option D) (count : dcspec T D) (tenor : option P)
    : res rcurve :=
    let dom := rc_domain other in
    let origin' := match origin with Some _ => origin | None => rc_origin other end in
    let need_origin {A} (m : D -> res A) : res A :=
      match origin' with Some o => m o | None => Err TypeError end in
    let extended t :=
      need_origin (fun o =>
        o1 <- d_add o (p_str Tday) ;;
        hi <- d_max dom ;;
        hi' <- d_add hi (p_str t) ;;
        rc_cast_on fuel flr k (date_set (dom ++ [o1; hi'])) other i (Some o) count tenor) in
    match k with
    | CZeroRate | CShortRate => rc_cast_on fuel flr k dom other i origin count tenor
    | CDiscountFactor => extended Tday
    | CSurvival | CDefault | CMargSurvival | CMargDefault => extended Tyear
    | CTermVol => extended T10years
    | CFlatIntensity | CHazard =>
        hi <- d_max dom ;;
        hi' <- d_add hi (p_str Tyear) ;;
        rc_cast_on fuel flr k (date_set (dom ++ [hi'])) other i origin count tenor
    | CCashRate =>
        let tenor' := match tenor with Some p => p | None => rc_tenor other end in
        ls <- mapM (fun x => need_origin (fun o => step_back fuel o x tenor')) dom ;;
        rc_cast_on fuel flr k (date_set (dom ++ concat ls)) other i origin' count (Some tenor')
    | CInstVol =>
        need_origin (fun o =>
          ls <- mapM (fun d => a <- d_sub d (p_str Tday) ;;
                               b <- d_add d (p_str Tday) ;; Ok [a; d; b]) (dom ++ [o]) ;;
          rc_cast_on fuel flr k (date_set (concat ls)) other i (Some o) count tenor)
    end.

  (** * State changes *)
  (** curve.py:680-691 the [spread] setter *)
  Definition set_spread (c : rcurve) (s : option (dcurve T D + rcurve)) : res rcurve :=
    match s, rc_spread c with
    | Some _, Some _ => Err TypeError
    | _, _ => Ok (mkR (rc_cls c) (rc_dc c) (rc_tenor0 c) s)
    end.

  (** curve.py:278-286 [__setitem__]: evaluates with spread *)
  Definition rc_setitem (c : rcurve) (key : D) (value : T) : res rcurve :=
    d <- dc_setitem_with (rc_call c) (rc_dc c) key value ;;
    Ok (mkR (rc_cls c) d (rc_tenor0 c) (rc_spread c)).

  (** curve.py:267-276 *)
  Definition rc_getitem (c : rcurve) (x : D) : res T :=
    if mem d_eqb x (rc_domain c) then rc_call c x else Err KeyError.

  (** curve.py:754-764 with 464-483, 293-306, 341-353 *)
  Definition rc_zip (fuel : nat) (flr : option T) (op : T -> T -> T) (a b : rcurve) : res rcurve :=
    b1 <- rc_cast fuel flr (rc_cls a) b None None DcDefault None ;;
    match rc_origin a, rc_origin b1 with
    | Some oa, Some ob =>
        delta <- d_diff oa ob ;;
        xs <- (if p_truthy delta then mapM (fun x => d_add x delta) (rc_domain b1)
               else Ok (rc_domain b1)) ;;
        b2 <- rc_cast_on fuel flr (rc_cls a) xs b1 None None DcDefault None ;;
        let grid := date_set (rc_domain a ++ rc_domain b2) in
        ys <- mapM (fun x => u <- rc_call a x ;; v <- rc_call b2 x ;; Ok (op u v)) grid ;;
        new <- rc_new (rc_cls a) grid ys (dc_interp (rc_dc a)) None DcDefault None ;;
        ns <- mapM (rc_call new) (rc_domain new) ;;
        _ <- rc_new (rc_cls a) (rc_domain new) ns (dc_interp (rc_dc new)) (Some oa)
                    (dc_count (rc_dc a)) None ;;
        rc_cast fuel flr (rc_cls a) new None None DcDefault (rc_tenor0 a)
    | _, _ => Err TypeError
    end.

  (** curve.py:766-768 with 485-489, 308-317: [a / b] ends with the assignment of a
      read-only property *)
  Definition rc_div (fuel : nat) (flr : option T) (a b : rcurve) : res rcurve :=
    b1 <- rc_cast fuel flr (rc_cls a) b None None DcDefault None ;;
    match rc_origin a, rc_origin b1 with
    | Some oa, Some ob =>
        delta <- d_diff oa ob ;;
        xs <- (if p_truthy delta then mapM (fun x => d_add x delta) (rc_domain b1)
               else Ok (rc_domain b1)) ;;
        b2 <- rc_cast_on fuel flr (rc_cls a) xs b1 None None DcDefault None ;;
        let grid := date_set (rc_domain a ++ rc_domain b2) in
        zs <- mapM (rc_call b2) grid ;;
        if existsb (fun z => negb (ntruthy z)) zs then Err ZeroDivisionError
        else ys <- mapM (fun x => u <- rc_call a x ;; v <- rc_call b2 x ;; ndiv u v) grid ;;
             _ <- rc_new (rc_cls a) grid ys (dc_interp (rc_dc a)) None DcDefault None ;;
             Err AttributeError
    | _, _ => Err TypeError
    end.
End RateCurve.
Arguments rcurve T D P : clear implicits.
