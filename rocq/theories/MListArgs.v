(** Model of the round trip of cash flow lists through [kwargs],
    /repo/dcf/cashflows/cashflow.py:57-78: [type(l)( **l.kwargs )].

    [kwargs] maps the names of the constructor's parameters to the attributes of the object
    with a leading underscore, of which there are only [_origin], [_legs] and, computed,
    the payment dates and the entries of the list in place of its amounts (66-69).  The
    entries of a tuple are replaced by their [kwargs] or their [__name__] if they have one
    (71-73); all other arguments (payoffs, strikes, day count, offsets, fixed rate, forward
    curve, payoff model) are left out and get their defaults. *)
From Coq Require Import List Bool ZArith.
From Verif Require Import Num Py MPlans MDates MCurve MRateCurve MOption MCashflow.
Import ListNotations.

Section ListArgs.
  Context {T D P : Type} {N : Num T} {DS : DateSys T D P} {DC : DayCounts T D}.
  Open Scope num_scope.

  (** the classes of cashflow.py and contingent.py *)
  Inductive lclass := KPlain | KFixed | KRate | KContingent | KOption | KStrategy | KContRate.

  (** an entry of the argument [amount_list]: a number, a payoff object, or the name of a
      function (73); callables without a name are not modelled *)
  Inductive amount := AFlow (f : flow T D P) | AName.
  Definition amount_of (f : flow T D P) : amount :=
    match f with FlPay (PCall _) => AName | _ => AFlow f end.
  (** 66-69: [self._flows[d] for d in self.domain] *)
  Definition amounts_kwarg (l : cflist T D P) : res (list amount) :=
    mapM (fun d => match assoc d_eqb d (cf_flows l) with
                   | Some f => Ok (amount_of f)
                   | None => Err KeyError
                   end) (cf_domain l).

  (** an entry of the rebuilt list: the given amount; a FixedCashFlowPayOff of it; a
      RateCashFlowPayOff or ContingentRateCashFlowPayOff on it; any other payoff *)
  Inductive entry :=
  | EAmount (a : amount) | EFixed (a : amount) | ERate (start stop : D) (a : amount)
  | EPay (p : payoff T D P).
  Record relist := mkRe { re_domain : list D; re_flows : list (D * entry); re_origin0 : option D }.

  (** CashFlowList.__init__, cashflow.py:115-128 *)
  Definition re_new (dates : list D) (entries : list entry) (origin : option D) : res relist :=
    if negb (length entries =? length dates)%nat then Err ValueError
    else Ok (mkRe dates (dict_of d_eqb (combine dates entries)) origin).

  (** the constructors with the arguments of [kwargs]: cashflow.py:115-128, 251-273,
      324-348 and contingent.py:25-67, 113-131, 179-199, 245-273 *)
  Definition list_rebuild (k : lclass) (l : cflist T D P) : res relist :=
    let dates := cf_domain l in
    let origin := cf_origin0 l in
    match k with
    | KPlain =>
        a <- amounts_kwarg l ;; re_new dates (map EAmount a) origin
    | KFixed =>
        a <- amounts_kwarg l ;; re_new dates (map EFixed a) origin
    | KRate =>
        a <- amounts_kwarg l ;;
        starts <- start_dates origin dates ;;
        re_new dates (map (fun x => ERate (fst (fst x)) (snd (fst x)) (snd x))
                          (combine (combine starts dates) a)) origin
    | KContRate =>
        a <- amounts_kwarg l ;;
        starts <- cont_start_dates origin dates ;;
        re_new dates (map (fun x => ERate (fst (fst x)) (snd (fst x)) (snd x))
                          (combine (combine starts dates) a)) origin
    | KContingent =>
        (* no [payoff_list]: the single default payoff, contingent.py:62-63 *)
        re_new dates [EPay (PCall (fun _ => Ok n0))] origin
    | KOption =>
        (* [strike_list] is (): nothing to zip, contingent.py:121-130 *)
        a <- amounts_kwarg l ;;
        re_new dates (map (fun x => EPay (POption (mkOP (fst (fst x)) n0 (snd x) false)))
                          (combine (combine dates a) [])) origin
    | KStrategy =>
        (* no strikes: strategies of no option *)
        re_new dates (map (fun d => EPay (strategy_new d (One n1) [] (One n1) [])) dates) origin
    end.

  (** cashflow.py:50-55 *)
  Definition re_origin (l : relist) : option D := dom_origin (re_origin0 l) (re_domain l).

  (** [l[d]] (cashflow.py:130-142, contingent.py:69-77), forward curve and payoff model
      being None: a number or an object.  A name cannot be called; payoffs.py:53-54 returns
      whatever the amount is; 112 compares the amount to 0, which payoff objects and
      strings do not support. *)
  Definition re_get (fuel : nat) (flr : option T) (l : relist) (d : D) : res amount :=
    match assoc d_eqb d (re_flows l) with
    | None => Ok (AFlow (FlNum n0))
    | Some (EAmount (AFlow f)) =>
        v <- flow_value fuel flr f (PmSource FwNone) ;; Ok (AFlow (FlNum v))
    | Some (EAmount AName) => Err TypeError
    | Some (EFixed a) => Ok a
    | Some (ERate s e a) =>
        yf <- d_yf s e ;;
        match a with
        | AFlow (FlNum x) => Ok (AFlow (FlNum ((n0 + n0) * yf * x)))
        | _ => Err TypeError
        end
    | Some (EPay p) => v <- pay fuel flr p (PmSource FwNone) ;; Ok (AFlow (FlNum v))
    end.

  (** CashFlowLegList( **l.kwargs ), cashflow.py:71-73, 208-220: the legs are replaced by
      their [kwargs], dictionaries, which are no lists; [min] of no origin *)
  Inductive leg_arg := GList (l : cflist T D P) | GDict.
  Definition legs_of (legs : list leg_arg) : res (list (cflist T D P)) :=
    mapM (fun g => match g with GList l => Ok l | GDict => Err ValueError end) legs.
  Definition legs_rebuild (l : leglist T D P) : res (leglist T D P) :=
    _ <- mapM amounts_kwarg (ll_legs l) ;;
    legs <- legs_of (map (fun _ => GDict) (ll_legs l)) ;;
    legs_new legs.
End ListArgs.
Arguments amount T D P : clear implicits.
Arguments entry T D P : clear implicits.
Arguments relist T D P : clear implicits.
