(** Model of the cash flow payoffs and cash flow lists:
    /repo/dcf/cashflows/payoffs.py, cashflow.py and contingent.py.

    Here only the entries of the dicts returned by [details] which the code reads back are
    modelled, and the columns 'cashflow' and 'pay date' of [table]; MDetails.v models them
    completely, MListArgs.v [kwargs]. Not modelled: [__str__], [__repr__]. *)
From Coq Require Import List Bool ZArith.
From Coq Require String.
From Verif Require Import Num Py MPlans MDates MCurve MRateCurve MOption.
Import ListNotations.

(** an argument given as one number for all dates or as a list *)
Inductive arg (A : Type) := One (a : A) | Many (l : list A).
Arguments One {A} a.
Arguments Many {A} l.
(** [if isinstance(x, (int, float)): x = [x] * n] *)
Definition spread_arg {A} (x : arg A) (n : nat) : list A :=
  match x with One a => repeat a n | Many l => l end.

Section Cashflow.
  Context {T D P : Type} {N : Num T} {DS : DateSys T D P} {DC : DayCounts T D}.
  Open Scope num_scope.

  (** the argument a payoff is called with: None, a number, a curve or a function
      ([PmSource], see MOption), or an OptionPayOffModel *)
  Inductive pmodel := PmSource (s : fsource T D P) | PmModel (m : omodel T D P).

  (** [if x:] for a forward source; objects and functions are true *)
  Definition src_truthy (s : fsource T D P) : bool :=
    match s with FwNone => false | FwNum x => ntruthy x | _ => true end.
  Definition pm_truthy (a : pmodel) : bool :=
    match a with PmSource s => src_truthy s | PmModel _ => true end.
  (** [getattr(model, 'forward_curve', model)], payoffs.py:129-130, 389 *)
  Definition pm_source (a : pmodel) : fsource T D P :=
    match a with PmSource s => s | PmModel m => om_forward m end.

  (** payoffs.py:131-136: the forward rate; None is not callable *)
  Definition source_rate (fuel : nat) (s : fsource T D P) (d : D) : res T :=
    match s with
    | FwNone => Err TypeError
    | FwNum x => Ok x
    | FwPrice c => fc_price c d
    | FwRate c => if is_interest (rc_cls c) then get_cash_rate fuel c d None None
                  else rc_call c d
    | FwDate c => dc_val c d
    | FwFun f => f d
    end.

  (** [self.day_count(a, b)] of a payoff, payoffs.py:93: None means the default day count, a
      non empty string is not callable *)
  Definition pay_count (s : dcspec T D) (a b : D) : res T :=
    match s with
    | DcDefault => d_yf a b
    | DcFun _ f => f a b
    | DcName n => if String.eqb n String.EmptyString then d_yf a b else Err TypeError
    end.

  (** [if offset: d -= offset] *)
  Definition offset (d : D) (o : option P) : res D :=
    match o with
    | Some p => if p_truthy p then d_sub d p else Ok d
    | None => Ok d
    end.

  (** a RateCashFlowPayOff, payoffs.py:57-105; the attribute [fixed_rate] may be set to
      None by assignment *)
  Record ratep := mkRP {
    rp_start : D; rp_end : D; rp_amount : T; rp_count : dcspec T D;
    rp_fixing : option P; rp_rate : option T }.
  (** an OptionCashFlowPayOff, 148-216 *)
  Record optp := mkOP { op_expiry : D; op_amount : T; op_strike : option T; op_put : bool }.

  Inductive payoff :=
  | PFixed (amount : T)
  | PRate (r : ratep)
  | POption (o : optp)
  | PStrategy (os : list optp)
  | PContRate (r : ratep) (floor cap : option T)
  | PCall (f : pmodel -> res T).   (* any other callable *)

  (** payoffs.py:107-145 *)
  Record rdetails := mkRD { rd_cashflow : T; rd_yf : T; rd_fixing : option D }.
  Definition rate_details (fuel : nat) (r : ratep) (a : pmodel) : res rdetails :=
    yf <- pay_count (rp_count r) (rp_start r) (rp_end r) ;;
    fw <- (if pm_truthy a then
             d <- offset (rp_start r) (rp_fixing r) ;;
             f <- source_rate fuel (pm_source a) d ;;
             Ok (f, Some d)
           else Ok (n0, None)) ;;
    c <- number (rp_rate r) ;;
    Ok (mkRD ((c + fst fw) * yf * rp_amount r) yf (snd fw)).

  (** payoffs.py:218-238; [model.details] (234) repeats the computation of 229 resp. 231 and
      cannot raise then.  A curve, number or function has no [get_call_value]. *)
  Definition option_cashflow (fuel : nat) (flr : option T) (o : optp) (a : pmodel) : res T :=
    match a with
    | PmModel m =>
        v <- (if op_put o then get_put_value fuel flr m (op_expiry o) (op_strike o)
              else get_call_value fuel flr m (op_expiry o) (op_strike o)) ;;
        Ok (op_amount o * v)
    | PmSource s => if src_truthy s then Err AttributeError else Ok n0
    end.

  (** payoffs.py:298-317 *)
  Definition strategy_cashflow (fuel : nat) (flr : option T) (os : list optp) (a : pmodel) : res T :=
    vs <- mapM (fun o => option_cashflow fuel flr o a) os ;; Ok (nsum vs).

  (** payoffs.py:387-427 *)
  Definition cont_cashflow (fuel : nat) (flr : option T) (r : ratep) (floor cap : option T)
             (a : pmodel) : res T :=
    x <- rate_details fuel r (PmSource (pm_source a)) ;;
    match a with
    | PmSource _ => Ok (rd_cashflow x)
    | PmModel m =>
        match rd_fixing x with
        | None => Err KeyError
        | Some d =>
            floorlet <- match floor with
                        | Some k => v <- get_put_value fuel flr m d (Some k) ;;
                                    Ok (v * (rd_yf x * rp_amount r))
                        | None => Ok n0
                        end ;;
            caplet <- match cap with
                      | Some k => v <- get_call_value fuel flr m d (Some k) ;;
                                  Ok (v * (rd_yf x * rp_amount r))
                      | None => Ok n0
                      end ;;
            Ok (rd_cashflow x + floorlet - caplet)
        end
    end.

  (** calling a payoff, payoffs.py:21-22, 53-54 *)
  Definition pay (fuel : nat) (flr : option T) (p : payoff) (a : pmodel) : res T :=
    match p with
    | PFixed x => Ok x
    | PRate r => x <- rate_details fuel r a ;; Ok (rd_cashflow x)
    | POption o => option_cashflow fuel flr o a
    | PStrategy os => strategy_cashflow fuel flr os a
    | PContRate r floor cap => cont_cashflow fuel flr r floor cap a
    | PCall f => f a
    end.

  (** OptionStrategyCashFlowPayOff(...), payoffs.py:243-296: a list of options sorted by
      strike; strikes are numbers *)
  Definition strike_ltb (a b : optp) : bool :=
    match op_strike a, op_strike b with
    | Some x, Some y => x <? y
    | _, _ => false
    end.
  Definition strategy_new (expiry : D) (call_amounts : arg T) (call_strikes : list T)
             (put_amounts : arg T) (put_strikes : list T) : payoff :=
    let make is_put ak := mkOP expiry (fst ak) (Some (snd ak)) is_put in
    PStrategy (sort strike_ltb
      (map (make true) (combine (spread_arg put_amounts (length put_strikes)) put_strikes) ++
       map (make false) (combine (spread_arg call_amounts (length call_strikes)) call_strikes))).

  (** * Lists *)
  (** an entry of [_flows] *)
  Inductive flow := FlNum (x : T) | FlPay (p : payoff).
  (** the attributes [forward_curve] resp. [payoff_model] of the classes *)
  Inductive lattr := LNone | LForward (s : fsource T D P) | LModel (a : pmodel).
  (** a CashFlowList object; [cf_rated]: its class has the property [fixed_rate] *)
  Record cflist := mkCF {
    cf_domain : list D; cf_flows : list (D * flow); cf_origin0 : option D;
    cf_attr : lattr; cf_rated : bool }.

  (** cashflow.py:86-128 *)
  Definition cf_new (dates : list D) (amounts : arg flow) (origin : option D) (attr : lattr)
             (rated : bool) : res cflist :=
    let amounts := spread_arg amounts (length dates) in
    if negb (length amounts =? length dates)%nat then Err ValueError
    else Ok (mkCF dates (dict_of d_eqb (combine dates amounts)) origin attr rated).

  (** cashflow.py:50-55 *)
  Definition cf_origin (l : cflist) : option D := dom_origin (cf_origin0 l) (cf_domain l).

  (** 133-135, 150-153: what the payoffs of a list are called with *)
  Definition attr_model (a : lattr) : pmodel :=
    match a with
    | LModel a => a
    | LForward s => PmSource s
    | LNone => PmSource FwNone
    end.

  Definition flow_value (fuel : nat) (flr : option T) (f : flow) (a : pmodel) : res T :=
    match f with FlNum x => Ok x | FlPay p => pay fuel flr p a end.
  (** [self._flows.get(item, 0.)] *)
  Definition cf_flow (l : cflist) (d : D) : flow :=
    match assoc d_eqb d (cf_flows l) with Some f => f | None => FlNum n0 end.

  (** cashflow.py:130-142 and contingent.py:69-77 *)
  Definition cf_get (fuel : nat) (flr : option T) (l : cflist) (d : D) : res T :=
    flow_value fuel flr (cf_flow l d) (attr_model (cf_attr l)).
  Definition cf_get_list (fuel : nat) (flr : option T) (l : cflist) (ds : list D) : res (list T) :=
    mapM (cf_get fuel flr l) ds.

  (** cashflow.py:144-156 [__call__]; [None] as argument means the list's own attribute *)
  Definition cf_call (fuel : nat) (flr : option T) (l : cflist) (a : option pmodel) : res cflist :=
    let a := match a with
             | Some (PmSource FwNone) | None => attr_model (cf_attr l)
             | Some a => a
             end in
    flows <- mapM (fun d => flow_value fuel flr (cf_flow l d) a) (cf_domain l) ;;
    cf_new (cf_domain l) (Many (map FlNum flows)) (cf_origin0 l) LNone false.

  (** cashflow.py:80-84 [payoff] *)
  Definition cf_payoff (l : cflist) (d : D) : option flow := assoc d_eqb d (cf_flows l).

  (** [x.__add__(y)], [__sub__], [__mul__] and [__truediv__] of floats *)
  Inductive arith := AAdd | ASub | AMul | ADiv.
  Definition num_arith (o : arith) (x y : T) : res T :=
    match o with
    | AAdd => Ok (x + y)
    | ASub => Ok (x - y)
    | AMul => Ok (x * y)
    | ADiv => ndiv x y
    end.
  (** cashflow.py:158-172: [l + x], [l - x], [l * x], [l / x] compute with the flows one by
      one and drop the results; returns what the expression gives ([None] is Python's None)
      and the list object afterwards.  A payoff object has none of these methods.  Numbers
      are floats (the division of an int returns NotImplemented for a float 0.). *)
  Definition cf_arith (o : arith) (l : cflist) (x : T) : res (option cflist) * cflist :=
    (_ <- mapM (fun kf => match snd kf with
                          | FlNum y => num_arith o y x
                          | FlPay _ => Err AttributeError
                          end) (cf_flows l) ;;
     Ok None, l).

  (** cashflow.py:25-43, the columns 'pay date' and 'cashflow' of [table]; a callable
      without [details] is no float *)
  Definition cf_table (fuel : nat) (flr : option T) (l : cflist) : res (list (D * T)) :=
    let fwd := match cf_attr l with LForward s => s | _ => FwNone end in
    mapM (fun d => match cf_flow l d with
                   | FlNum x => Ok (d, x)
                   | FlPay (PCall _) => Err TypeError
                   | FlPay p => v <- pay fuel flr p (PmSource fwd) ;; Ok (d, v)
                   end) (cf_domain l).

  (** FixedCashFlowList(dates, amounts), cashflow.py:251-273 *)
  Definition fixed_new (dates : list D) (amounts : arg T) (origin : option D) : res cflist :=
    let amounts := spread_arg amounts (length dates) in
    cf_new dates (Many (map (fun a => FlPay (PFixed a)) amounts)) origin LNone false.
  (** FixedCashFlowList(cashflow_list), 265-268 *)
  Definition fixed_of (fuel : nat) (flr : option T) (l : cflist) (origin : option D) : res cflist :=
    amounts <- cf_get_list fuel flr l (cf_domain l) ;;
    fixed_new (cf_domain l) (Many amounts) (origin_or origin (cf_origin0 l)).

  (** cashflow.py:324-334; [start_dates] stays unbound without origin and dates *)
  Definition start_dates (origin : option D) (dates : list D) : res (list D) :=
    match origin, dates with
    | Some o, _ => Ok (o :: removelast dates)
    | None, d0 :: d1 :: _ =>
        step <- d_diff d1 d0 ;; s <- d_sub d0 step ;; Ok (s :: removelast dates)
    | None, [d] => Ok dates
    | None, [] => Err UnboundLocalError
    end.
  (** contingent.py:248-257: an origin that is false is not used *)
  Definition cont_start_dates (origin : option D) (dates : list D) : res (list D) :=
    match origin with
    | Some o => if d_truthy o then Ok (o :: removelast dates)
                else match dates with [] => Err UnboundLocalError | _ => Ok dates end
    | None => start_dates None dates
    end.

  (** cashflow.py:336-346, contingent.py:259-270: the rate payoffs *)
  Definition rate_payoffs (starts dates : list D) (amounts : list T) (count : dcspec T D)
             (fixing_offset pay_offset : option P) (fixed_rate : T) : res (list ratep) :=
    mapM (fun x => let '(s, e, a) := x in
            e' <- offset e pay_offset ;;
            s' <- offset s pay_offset ;;
            Ok (mkRP s' e' a count fixing_offset (Some fixed_rate)))
         (combine (combine starts dates) amounts).

  (** RateCashFlowList(...), cashflow.py:283-350 *)
  Definition ratelist_new (dates : list D) (amounts : arg T) (origin : option D)
             (count : dcspec T D) (fixing_offset pay_offset : option P) (fixed_rate : T)
             (forward : fsource T D P) : res cflist :=
    starts <- start_dates origin dates ;;
    rs <- rate_payoffs starts dates (spread_arg amounts (length dates)) count
            fixing_offset pay_offset fixed_rate ;;
    cf_new dates (Many (map (fun r => FlPay (PRate r)) rs)) origin (LForward forward) true.

  (** ContingentRateCashFlowList(...), contingent.py:212-275 *)
  Definition contrate_new (dates : list D) (amounts : arg T) (origin : option D)
             (count : dcspec T D) (fixing_offset pay_offset : option P) (fixed_rate : T)
             (cap floor : option T) (model : pmodel) : res cflist :=
    starts <- cont_start_dates origin dates ;;
    rs <- rate_payoffs starts dates (spread_arg amounts (length dates)) count
            fixing_offset pay_offset fixed_rate ;;
    cf_new dates (Many (map (fun r => FlPay (PContRate r floor cap)) rs)) origin (LModel model) true.

  (** ContingentCashFlowList(...), contingent.py:25-67; without payoffs a list of a single
      zero payoff is used *)
  Definition contingent_new (dates : list D) (payoffs : option (list flow)) (origin : option D)
             (model : pmodel) : res cflist :=
    let payoffs := match payoffs with
                   | Some l => l
                   | None => [FlPay (PCall (fun _ => Ok n0))]
                   end in
    cf_new dates (Many payoffs) origin (LModel model) false.

  (** contingent.py:117-120, 185-188 *)
  Definition expiry_of (d : D) (fixing_offset pay_offset : option P) : res D :=
    e <- offset d pay_offset ;; offset e fixing_offset.

  (** OptionCashflowList(...), contingent.py:88-131; strikes: a number or a list of numbers
      or None *)
  Definition optionlist_new (dates : list D) (amounts : arg T) (strikes : arg (option T))
             (is_put : arg bool) (fixing_offset pay_offset : option P) (origin : option D)
             (model : pmodel) : res cflist :=
    let n := length dates in
    os <- mapM (fun x => let '(d, a, k, b) := x in
                  e <- expiry_of d fixing_offset pay_offset ;;
                  Ok (FlPay (POption (mkOP e a k b))))
               (combine (combine (combine dates (spread_arg amounts n)) (spread_arg strikes n))
                        (spread_arg is_put n)) ;;
    contingent_new dates (Some os) origin model.

  (** OptionStrategyCashflowList(...), contingent.py:152-199; building the message of the
      KeyError (180-182) adds a number to a string *)
  Definition strategylist_new (dates : list D) (call_amounts : arg T) (call_strikes : list T)
             (put_amounts : arg T) (put_strikes : list T) (fixing_offset pay_offset : option P)
             (origin : option D) (model : pmodel) : res cflist :=
    if (10 <? length put_strikes + length call_strikes)%nat then Err TypeError
    else
      os <- mapM (fun d => e <- expiry_of d fixing_offset pay_offset ;;
                           Ok (FlPay (strategy_new e call_amounts call_strikes
                                                   put_amounts put_strikes))) dates ;;
      contingent_new dates (Some os) origin model.

  (** * The property [fixed_rate], cashflow.py:353-362, contingent.py:277-286 *)
  Definition flow_rate (f : flow) : res (option T) :=
    match f with
    | FlPay (PRate r) | FlPay (PContRate r _ _) => Ok (rp_rate r)
    | _ => Err AttributeError
    end.
  Definition rate_eqb (a b : option T) : bool :=
    match a, b with Some x, Some y => x =? y | None, None => true | _, _ => false end.
  (** the common rate of all flows, None if there is none *)
  Definition fixed_rate (l : cflist) : res (option T) :=
    if cf_rated l then
      rs <- mapM (fun kf => flow_rate (snd kf)) (cf_flows l) ;;
      Ok (match rs with
          | r :: rs' => if forallb (rate_eqb r) rs' then r else None
          | [] => None
          end)
    else Err AttributeError.
  Definition with_rate (v : option T) (f : flow) : flow :=
    let set r := mkRP (rp_start r) (rp_end r) (rp_amount r) (rp_count r) (rp_fixing r) v in
    match f with
    | FlPay (PRate r) => FlPay (PRate (set r))
    | FlPay (PContRate r a b) => FlPay (PContRate (set r) a b)
    | _ => f
    end.
  (** the setter; on an object without the property it just adds an attribute *)
  Definition set_fixed_rate (l : cflist) (v : option T) : cflist :=
    if cf_rated l then
      mkCF (cf_domain l) (map (fun kf => (fst kf, with_rate v (snd kf))) (cf_flows l))
           (cf_origin0 l) (cf_attr l) (cf_rated l)
    else l.

  (** * CashFlowLegList, cashflow.py:200-248; legs are lists which are no leg lists (for those see MNested.v) *)
  Record leglist := mkLL { ll_legs : list cflist; ll_base : cflist }.

  (** [min(...)] of origins; None cannot be compared *)
  Definition min_origin (os : list (option D)) : res (option D) :=
    match os with
    | [] => Err ValueError
    | [o] => Ok o
    | _ => ds <- mapM (fun o => match o with Some d => Ok d | None => Err TypeError end) os ;;
           d <- d_min ds ;; Ok (Some d)
    end.
  (** 208-223 *)
  Definition legs_new (legs : list cflist) : res leglist :=
    let domain := date_set (concat (map cf_domain legs)) in
    o <- min_origin (map cf_origin legs) ;;
    base <- cf_new domain (Many (repeat (FlNum n0) (length domain))) o LNone false ;;
    Ok (mkLL legs base).
  Definition ll_domain (l : leglist) : list D := cf_domain (ll_base l).
  Definition ll_origin (l : leglist) : option D := cf_origin (ll_base l).
  (** 225-232 *)
  Definition ll_get (fuel : nat) (flr : option T) (l : leglist) (d : D) : res T :=
    vs <- mapM (fun leg => cf_get fuel flr leg d)
               (filter (fun leg => mem d_eqb d (cf_domain leg)) (ll_legs l)) ;;
    Ok (nsum vs).
  Definition ll_get_list (fuel : nat) (flr : option T) (l : leglist) (ds : list D) : res (list T) :=
    mapM (ll_get fuel flr l) ds.
  (** [__call__] is inherited: it reads [_flows], which holds zeros (223) *)
  Definition ll_call (fuel : nat) (flr : option T) (l : leglist) (a : option pmodel) : res cflist :=
    cf_call fuel flr (ll_base l) a.
  (** cashflow.py:234-248: arithmetic of the legs *)
  Definition ll_arith (o : arith) (l : leglist) (x : T) : res (option leglist) * leglist :=
    (_ <- mapM (fun leg => fst (cf_arith o leg x)) (ll_legs l) ;; Ok None,
     mkLL (map (fun leg => snd (cf_arith o leg x)) (ll_legs l)) (ll_base l)).
  (** FixedCashFlowList(leg_list), 265-268 *)
  Definition ll_fixed (fuel : nat) (flr : option T) (l : leglist) (origin : option D) : res cflist :=
    amounts <- ll_get_list fuel flr l (ll_domain l) ;;
    fixed_new (ll_domain l) (Many amounts) (origin_or origin (cf_origin0 (ll_base l))).
End Cashflow.
Arguments pmodel T D P : clear implicits.
Arguments payoff T D P : clear implicits.
Arguments ratep T D P : clear implicits.
Arguments optp T D : clear implicits.
Arguments flow T D P : clear implicits.
Arguments lattr T D P : clear implicits.
Arguments cflist T D P : clear implicits.
Arguments leglist T D P : clear implicits.
