(** Model of the dicts returned by [details] of payoffs and option models and of
    [CashFlowList.table]: /repo/dcf/cashflows/payoffs.py, cashflow.py:25-43,
    /repo/dcf/models/optionpricing.py:193-245.

    A dict is an association list in order of insertion.  Not modelled: the entries which
    are object ids ('forward-curve-id', 'volatility-curve-id', 'model-id'). *)
From Coq Require Import List Bool ZArith Arith.
From Verif Require Import Num Py MPlans MDates MCurve MRateCurve MOption MCashflow.
Import ListNotations.

(** the keys; [KNum i k] is the string "#i k" (payoffs.py:305) *)
Inductive key :=
| KCashflow | KPayDate | KNotional | KPayRec | KFixedRate | KStart | KEnd | KYearFraction
| KForwardRate | KFixing | KTenor | KPutCall | KLongShort | KStrike | KExpiry
| KForward | KVolatility | KTime | KValuation | KModelValuation
| KFloorlet | KFloorletStrike | KFloorletVolatility
| KCaplet | KCapletStrike | KCapletVolatility
| KNum (i : nat) (k : key).

Scheme Equality for key.

Inductive label := LPay | LRec | LPut | LCall | LLong | LShort.

Section Details.
  Context {T D P : Type} {N : Num T} {DS : DateSys T D P} {DC : DayCounts T D}.
  Open Scope num_scope.

  Inductive value :=
  | VNum (x : T) | VNone | VDate (d : D) | VPeriod (p : P) | VLabel (s : label)
  | VEmpty.   (* the empty string *)
  Notation dict := (list (key * value)).

  (** [d[k] = v], [d.update(e)], [d.get(k)] *)
  Definition dset (k : key) (v : value) (d : dict) : dict := assoc_set key_beq k v d.
  Definition dupdate (d e : dict) : dict := fold_left (fun d kv => dset (fst kv) (snd kv) d) e d.
  Definition dget (d : dict) (k : key) : option value := assoc key_beq k d.

  Definition vnum (x : option T) : value := match x with Some x => VNum x | None => VNone end.
  Definition vdate (x : option D) : value := match x with Some x => VDate x | None => VNone end.

  (** [forward_curve.forward_tenor]: rate curves have the attribute *)
  Definition source_tenor (s : fsource T D P) : option P :=
    match s with FwRate c => Some (rc_tenor c) | _ => None end.

  (** RateCashFlowPayOff.details, payoffs.py:107-145 *)
  Definition d_rate (fuel : nat) (r : ratep T D P) (a : pmodel T D P) : res dict :=
    yf <- pay_count (rp_count r) (rp_start r) (rp_end r) ;;
    let d := [(KCashflow, VNum n0); (KNotional, VNum (rp_amount r));
              (KPayRec, VLabel (if n0 <? rp_amount r then LPay else LRec));
              (KFixedRate, vnum (rp_rate r)); (KStart, VDate (rp_start r));
              (KEnd, VDate (rp_end r)); (KYearFraction, VNum yf)] in
    fd <- (if pm_truthy a then
             x <- offset (rp_start r) (rp_fixing r) ;;
             f <- source_rate fuel (pm_source a) x ;;
             Ok (f, dupdate d [(KForwardRate, VNum f); (KFixing, VDate x);
                               (KTenor, match source_tenor (pm_source a) with
                                        | Some p => VPeriod p | None => VNone end)])
           else Ok (n0, d)) ;;
    c <- number (rp_rate r) ;;
    Ok (dset KCashflow (VNum ((c + fst fd) * yf * rp_amount r)) (snd fd)).

  (** OptionPayOffModel.details, optionpricing.py:203-245, as a dict *)
  Definition d_model (fuel : nat) (flr : option T) (m : omodel T D P) (d : D) (strike : option T)
    : res dict :=
    x <- om_details fuel flr m d strike ;;
    Ok ([(KValuation, vdate (om_valuation m))] ++
        match od_forward x with
        | Some f => [(KFixing, VDate d)] ++
                    match source_tenor (om_forward m) with
                    | Some p => [(KTenor, VPeriod p)] | None => [] end ++
                    [(KForward, VNum f)]
        | None => []
        end ++
        [(KStrike, VNum (od_strike x))] ++
        match od_vol x with Some v => [(KVolatility, VNum v)] | None => [] end ++
        [(KTime, VNum (od_time x))]).

  (** OptionCashFlowPayOff.details, payoffs.py:218-238 *)
  Definition d_option (fuel : nat) (flr : option T) (o : optp T D) (a : pmodel T D P) : res dict :=
    let d := [(KCashflow, VNum n0); (KPutCall, VLabel (if op_put o then LPut else LCall));
              (KLongShort, VLabel (if n0 <? op_amount o then LLong else LShort));
              (KNotional, VNum (op_amount o)); (KStrike, vnum (op_strike o));
              (KExpiry, VDate (op_expiry o))] in
    match a with
    | PmModel m =>
        v <- (if op_put o then get_put_value fuel flr m (op_expiry o) (op_strike o)
              else get_call_value fuel flr m (op_expiry o) (op_strike o)) ;;
        e <- d_model fuel flr m (op_expiry o) (op_strike o) ;;
        Ok (dupdate (dset KCashflow (VNum (op_amount o * v)) d) e)
    | PmSource s => if src_truthy s then Err AttributeError else Ok d
    end.

  (** OptionStrategyCashFlowPayOff.details, payoffs.py:298-317: the loop 303-307 *)
  Fixpoint d_options (fuel : nat) (flr : option T) (os : list (optp T D)) (a : pmodel T D P)
           (i : nat) (d : dict) (cf : T) : res (dict * T) :=
    match os with
    | [] => Ok (d, cf)
    | o :: os' =>
        e <- d_option fuel flr o a ;;
        cf' <- match dget e KCashflow with
               | Some (VNum v) => Ok (cf + v)
               | _ => Err TypeError
               end ;;
        d_options fuel flr os' a (S i)
          (dupdate d (map (fun kv => (KNum i (fst kv), snd kv)) e)) cf'
    end.
  (** [d.pop('strike')] *)
  Definition dpop (k : key) (d : dict) : dict := filter (fun kv => negb (key_beq (fst kv) k)) d.
  Definition d_strategy (fuel : nat) (flr : option T) (os : list (optp T D)) (a : pmodel T D P)
    : res dict :=
    x <- d_options fuel flr os a 0 [(KCashflow, VNum n0)] n0 ;;
    let (d, cf) := x in
    d' <- match os, a with
          | o :: _, PmModel m =>
              e <- d_model fuel flr m (op_expiry o) None ;; Ok (dupdate d (dpop KStrike e))
          | o :: _, PmSource s => if src_truthy s then Err AttributeError else Ok d
          | [], _ => Ok d
          end ;;
    Ok (dset KCashflow (VNum cf) d').

  (** ContingentRateCashFlowPayOff.details, payoffs.py:387-427 *)
  Definition d_contingent (fuel : nat) (flr : option T) (r : ratep T D P) (floor cap : option T)
             (a : pmodel T D P) : res dict :=
    d <- d_rate fuel r (PmSource (pm_source a)) ;;
    match a with
    | PmSource _ => Ok d
    | PmModel m =>
        match dget d KFixing, dget d KYearFraction, dget d KNotional, dget d KCashflow with
        | Some (VDate x), Some (VNum yf), Some (VNum amount), Some (VNum cf) =>
            let collar k is_floor :=
              e <- d_model fuel flr m x (Some k) ;;
              v <- (if (is_floor : bool) then get_put_value fuel flr m x (Some k)
                    else get_call_value fuel flr m x (Some k)) ;;
              let y := v * (yf * amount) in
              let vol := match dget e KVolatility with Some v => v | None => VNone end in
              Ok (y, e,
                  if is_floor
                  then [(KFloorlet, VNum y); (KFloorletStrike, VNum k); (KFloorletVolatility, vol)]
                  else [(KCaplet, VNum y); (KCapletStrike, VNum k); (KCapletVolatility, vol)]) in
            let none_or z := match z with Some v => v | None => VNone end in
            fl <- match floor with
                  | Some k => y <- collar k true ;; Ok (Some y) | None => Ok None end ;;
            cl <- match cap with
                  | Some k => y <- collar k false ;; Ok (Some y) | None => Ok None end ;;
            let part z := match z with Some (y, _, _) => y | None => n0 end in
            let upd z d := match z with Some (_, _, u) => dupdate d u | None => d end in
            let d := upd cl (upd fl d) in
            let d := match cl, fl with
                     | Some (_, e, _), _ | None, Some (_, e, _) =>
                         dupdate d [(KTime, none_or (dget e KTime));
                                    (KValuation, none_or (dget e KValuation))]
                     | None, None => d
                     end in
            Ok (dset KCashflow (VNum (cf + part fl - part cl)) d)
        | _, _, _, _ => Err KeyError
        end
    end.

  (** [payoff.details(_)]; a callable which is no CashFlowPayOff has no details *)
  Definition details (fuel : nat) (flr : option T) (p : payoff T D P) (a : pmodel T D P) : res dict :=
    match p with
    | PFixed x => Ok [(KCashflow, VNum x)]
    | PRate r => d_rate fuel r a
    | POption o => d_option fuel flr o a
    | PStrategy os => d_strategy fuel flr os a
    | PContRate r floor cap => d_contingent fuel flr r floor cap a
    | PCall _ => Err AttributeError
    end.

  (** * CashFlowList.table, cashflow.py:25-43 *)
  (** the class attributes [_cashflow_details]: cashflow.py:23, 279-281 and contingent.py:23,
      82-86, 136-152, 204-210 *)
  Definition base_columns : list key := [KCashflow; KPayDate].
  Definition rate_columns : list key :=
    [KCashflow; KPayDate; KNotional; KStart; KEnd; KYearFraction; KFixedRate; KForwardRate;
     KFixing; KTenor].
  Definition option_columns : list key :=
    [KCashflow; KPayDate; KPutCall; KLongShort; KNotional; KStrike; KExpiry; KFixing; KForward;
     KVolatility; KTime; KValuation].
  Definition strategy_columns : list key :=
    [KCashflow; KPayDate] ++
    flat_map (fun i => [KNum i KPutCall; KNum i KLongShort; KNum i KNotional; KNum i KStrike])
             (seq 0 10) ++
    [KExpiry; KFixing; KForward; KVolatility; KTime; KValuation].
  Definition contrate_columns : list key :=
    rate_columns ++
    [KFloorlet; KFloorletStrike; KFloorletVolatility; KCaplet; KCapletStrike; KCapletVolatility;
     KTime; KModelValuation].

  (** 31-38: the dict of one date; a callable without details is no float *)
  Definition row_dict (fuel : nat) (flr : option T) (l : cflist T D P) (d : D) : res dict :=
    let fwd := match cf_attr l with LForward s => s | _ => FwNone end in
    match cf_flow l d with
    | FlNum x => Ok [(KCashflow, VNum x); (KPayDate, VDate d)]
    | FlPay (PCall _) => Err TypeError
    | FlPay p => e <- details fuel flr p (PmSource fwd) ;; Ok (dset KPayDate (VDate d) e)
    end.
  (** 39-41 *)
  Definition extend (columns : list key) (e : dict) (header : list key) : list key :=
    fold_left (fun h k => match dget e k with
                          | Some _ => if mem key_beq k h then h else h ++ [k]
                          | None => h
                          end) columns header.
  Definition row (e : dict) (header : list key) : list value :=
    map (fun h => match dget e h with Some v => v | None => VEmpty end) header.
  Fixpoint rows (fuel : nat) (flr : option T) (l : cflist T D P) (columns : list key)
           (ds : list D) (header : list key) : res (list key * list (list value)) :=
    match ds with
    | [] => Ok (header, [])
    | d :: ds' =>
        e <- row_dict fuel flr l d ;;
        let header := extend columns e header in
        r <- rows fuel flr l columns ds' header ;;
        Ok (fst r, row e header :: snd r)
    end.
  (** the header and the rows *)
  Definition table (fuel : nat) (flr : option T) (l : cflist T D P) (columns : list key)
    : res (list key * list (list value)) :=
    rows fuel flr l columns (cf_domain l) [].
  (** inherited by CashFlowLegList, whose [_flows] are zeros (223) *)
  Definition ll_table (fuel : nat) (flr : option T) (l : leglist T D P)
    : res (list key * list (list value)) :=
    table fuel flr (ll_base l) base_columns.
End Details.
Arguments value T D P : clear implicits.
