(** Model of the option payoff models: /repo/dcf/models/distibutions.py,
    optionpricing.py, intrinsic.py, bachelier.py, black76.py and displaced.py. *)
From Coq Require Import List Bool ZArith.
From Verif Require Import Num Py MDates MCurve MRateCurve.
Import ListNotations.

(** What arithmetic makes of a date where the code passes a date as time to expiry
    (optionpricing.py:340, 387, 425): a float date is a number, sqrt of a date object
    is a TypeError. *)
Class DateNum (T D : Type) := date_num : D -> res T.
#[global] Instance FloatNum {T} : DateNum T T := fun d => Ok d.
#[global] Instance DayNum {T} : DateNum T bdate := fun _ => Err TypeError.

Section Normal.
  Context {T : Type} {N : Num T}.
  Open Scope num_scope.

  (** [ONE_OVER_SQRT_OF_TWO_PI], distibutions.py:16 *)
  Definition one_over_sqrt_2pi : T := n_ratio 398942280401433 1000000000000000.
  (** [0.5] and the coefficients, distibutions.py:24-53 *)
  Definition half : T := n_ratio 1 2.
  Definition as_p : T := n_ratio 2316419 10000000.
  Definition as_b1 : T := n_ratio 31938153 100000000.
  Definition as_b2 : T := n_ratio (-356563782) 1000000000.
  Definition as_b3 : T := n_ratio 1781477937 1000000000.
  Definition as_b4 : T := n_ratio (-1821255978) 1000000000.
  Definition as_b5 : T := n_ratio 1330274429 1000000000.

  (** [normal_pdf], distibutions.py:19-24 *)
  Definition normal_pdf (x : T) : res T :=
    e <- nexp (nopp half * x * x) ;; Ok (one_over_sqrt_2pi * e).

  (** the nested polynomial, distibutions.py:37-41, 49-53 *)
  Definition as_poly (r : T) : T :=
    r * (as_b1 + r * (as_b2 + r * (as_b3 + r * (as_b4 + r * as_b5)))).

  (** [normal_cdf], distibutions.py:27-55 *)
  Definition normal_cdf (x : T) : res T :=
    if n0 <=? x then
      r <- ndiv n1 (n1 + as_p * x) ;;
      e <- nexp (nopp half * x * x) ;;
      Ok (n1 - one_over_sqrt_2pi * e * as_poly r)
    else
      r <- ndiv n1 (n1 - as_p * x) ;;
      e <- nexp (nopp half * x * x) ;;
      Ok (one_over_sqrt_2pi * e * as_poly r).
End Normal.

Section Formulas.
  Context {T : Type} {N : Num T}.
  Open Scope num_scope.

  (** The classes implementing [_call_price] and the analytic greeks.  [FCustom] is a
      user class: price and greeks, [Ok None] meaning that the method returns None
      (optionpricing.py:82-92).  The time argument of a greek is a [res]: an error says
      that the argument is no number, which only matters if the method uses it.
      [FSpread] is BinaryOptionPayOffModel around an inner pricing formula. *)
  Inductive formula :=
  | FIntrinsic | FBinIntrinsic
  | FNormal | FBinNormal
  | FLogNormal | FBinLogNormal
  | FDisplaced (displacement : T) | FBinDisplaced (displacement : T)
  | FCustom (price : T -> T -> T -> T -> res T)
            (delta gamma vega theta : res T -> T -> T -> T -> res (option T))
  | FSpread (strike_shift : T) (inner : T -> T -> T -> T -> res T).

  (** bachelier.py:50-51 and alike: [vol], [d] *)
  Definition bachelier_d (time : res T) (k f v : T) : res (T * T) :=
    t <- time ;; s <- nsqrt t ;;
    let vol := v * s in
    d <- ndiv (f - k) vol ;; Ok (vol, d).
  (** black76.py:54-55 and alike *)
  Definition black_d (time : res T) (k f v : T) : res (T * T) :=
    t <- time ;; s <- nsqrt t ;;
    let vol := v * s in
    q <- ndiv f k ;; l <- nlog q ;;
    h <- ndiv (npow vol 2) (n_ofZ 2) ;;
    d <- ndiv (l + h) vol ;; Ok (vol, d).

  (** LogNormalOptionPayOffModel, black76.py:53-71 *)
  Definition black_price (time : res T) (k f v : T) : res T :=
    vd <- black_d time k f v ;;
    let (vol, d) := vd in
    a <- normal_cdf d ;; b <- normal_cdf (d - vol) ;;
    Ok (f * a - k * b).
  Definition black_delta (time : res T) (k f v : T) : res T :=
    vd <- black_d time k f v ;; normal_cdf (snd vd).
  Definition black_vega (time : res T) (k f v : T) : res T :=
    vd <- black_d time k f v ;;
    let (vol, d) := vd in
    t <- time ;; s <- nsqrt t ;;
    p <- normal_pdf (d - vol) ;;
    Ok (f * s * p).

  (** BinaryLogNormalOptionPayOffModel, black76.py:103-121 *)
  Definition bin_black_price (time : res T) (k f v : T) : res T :=
    vd <- black_d time k f v ;; normal_cdf (snd vd).
  Definition bin_black_delta (time : res T) (k f v : T) : res T :=
    vd <- black_d time k f v ;;
    let (vol, d) := vd in
    p <- normal_pdf (d - vol) ;; ndiv p (vol * f).
  Definition bin_black_vega (time : res T) (k f v : T) : res T :=
    vd <- black_d time k f v ;;
    let (vol, d) := vd in
    p <- normal_pdf d ;; ndiv ((d - vol) * p) v.

  (** NormalOptionPayOffModel, bachelier.py:49-67; price and delta of
      BinaryNormalOptionPayOffModel (97-105) have the bodies of delta and gamma, its
      vega (112-115) that of vega *)
  Definition normal_price (time : res T) (k f v : T) : res T :=
    vd <- bachelier_d time k f v ;;
    let (vol, d) := vd in
    a <- normal_cdf d ;; p <- normal_pdf d ;;
    Ok ((f - k) * a + vol * p).
  Definition normal_delta (time : res T) (k f v : T) : res T :=
    vd <- bachelier_d time k f v ;; normal_cdf (snd vd).
  Definition normal_gamma (time : res T) (k f v : T) : res T :=
    vd <- bachelier_d time k f v ;;
    p <- normal_pdf (snd vd) ;; ndiv p (fst vd).
  Definition normal_vega (time : res T) (k f v : T) : res T :=
    vd <- bachelier_d time k f v ;;
    t <- time ;; s <- nsqrt t ;;
    p <- normal_pdf (snd vd) ;; Ok (s * p).

  (** BinaryNormalOptionPayOffModel._call_gamma, bachelier.py:107-110 *)
  Definition bin_normal_gamma (time : res T) (k f v : T) : res T :=
    vd <- bachelier_d time k f v ;;
    let (vol, d) := vd in
    t <- time ;;
    p <- normal_pdf d ;; ndiv (d * p) (vol * vol * t).

  (** [_call_price] of each class; BinaryOptionPayOffModel: optionpricing.py:488-495,
      displaced.py:65-69, 111-115, intrinsic.py:39-40, 72-73 *)
  Definition call_price (m : formula) (t k f v : T) : res T :=
    match m with
    | FIntrinsic => Ok (nmax (f - k) n0)
    | FBinIntrinsic => Ok (if f <=? k then n0 else n1)
    | FNormal => normal_price (Ok t) k f v
    | FBinNormal => normal_delta (Ok t) k f v
    | FLogNormal => black_price (Ok t) k f v
    | FBinLogNormal => bin_black_price (Ok t) k f v
    | FDisplaced a => black_price (Ok t) (k + a) (f + a) v
    | FBinDisplaced a => bin_black_price (Ok t) (k + a) (f + a) v
    | FCustom p _ _ _ _ => p t k f v
    | FSpread h inner =>
        h2 <- ndiv h (n_ofZ 2) ;;
        lo <- inner t (k - h2) f v ;;
        hi <- inner t (k + h2) f v ;;
        ndiv (lo - hi) h
    end.

  (** [_call_delta], intrinsic.py:42-43, 75-76, displaced.py:71-75; BinaryDisplaced
      inherits the undisplaced greeks *)
  Definition call_delta (m : formula) (t : res T) (k f v : T) : res (option T) :=
    match m with
    | FIntrinsic => Ok (Some (if f <? k then n0 else n1))
    | FBinIntrinsic => Ok (Some n0)
    | FNormal => rmap Some (normal_delta t k f v)
    | FBinNormal => rmap Some (normal_gamma t k f v)
    | FLogNormal => rmap Some (black_delta t k f v)
    | FBinLogNormal => rmap Some (bin_black_delta t k f v)
    | FDisplaced a => rmap Some (black_delta t (k + a) (f + a) v)
    | FBinDisplaced _ => rmap Some (bin_black_delta t k f v)
    | FCustom _ g _ _ _ => g t k f v
    | FSpread _ _ => Ok None
    end.
  (** [_call_gamma]; "TODO" in black76.py:63-66, 113-116: None *)
  Definition call_gamma (m : formula) (t : res T) (k f v : T) : res (option T) :=
    match m with
    | FIntrinsic | FBinIntrinsic => Ok (Some n0)
    | FNormal => rmap Some (normal_gamma t k f v)
    | FBinNormal => rmap Some (bin_normal_gamma t k f v)
    | FCustom _ _ g _ _ => g t k f v
    | FLogNormal | FBinLogNormal | FDisplaced _ | FBinDisplaced _ | FSpread _ _ => Ok None
    end.
  (** [_call_vega], intrinsic.py:48-49, 81-82, displaced.py:83-87 *)
  Definition call_vega (m : formula) (t : res T) (k f v : T) : res (option T) :=
    match m with
    | FIntrinsic | FBinIntrinsic => Ok (Some n0)
    | FNormal => rmap Some (normal_vega t k f v)
    | FBinNormal => rmap Some (normal_vega t k f v)
    | FLogNormal => rmap Some (black_vega t k f v)
    | FBinLogNormal => rmap Some (bin_black_vega t k f v)
    | FDisplaced a => rmap Some (black_vega t (k + a) (f + a) v)
    | FBinDisplaced _ => rmap Some (bin_black_vega t k f v)
    | FCustom _ _ _ g _ => g t k f v
    | FSpread _ _ => Ok None
    end.
  (** [_call_theta]: no class of the library implements it *)
  Definition call_theta (m : formula) (t : res T) (k f v : T) : res (option T) :=
    match m with
    | FCustom _ _ _ _ g => g t k f v
    | _ => Ok None
    end.

  (** the class attributes DELTA_SHIFT ... THETA_SCALE, optionpricing.py:98-128 *)
  Record gconst := mkG {
    delta_shift : T; delta_scale : T;
    vega_shift : T; vega_scale : T;
    theta_shift : T; theta_scale : T
  }.
  Definition default_gconst : gconst :=
    mkG (n_ratio 1 10000) (n_ratio 1 10000) (n_ratio 1 100) (n_ratio 1 100)
        (n_ratio 4 1461) (n_ratio 4 1461).
  (** [STRIKE_SHIFT], optionpricing.py:447 *)
  Definition default_strike_shift : T := n_ratio 1 10000.
End Formulas.
Arguments formula T : clear implicits.
Arguments gconst T : clear implicits.

Section Options.
  Context {T D P : Type} {N : Num T} {DS : DateSys T D P} {DC : DayCounts T D}
          {DN : DateNum T D}.
  Open Scope num_scope.

  (** what the attribute [forward_curve] may be: None, a number, a ForwardCurve (or any
      object with [get_forward_price]), a RateCurve, another DateCurve, a function.
      Curve objects are always true, a number is true unless zero. *)
  Inductive fsource :=
  | FwNone
  | FwNum (x : T)
  | FwPrice (c : fcurve T D)
  | FwRate (c : rcurve T D P)
  | FwDate (c : dcurve T D)
  | FwFun (f : D -> res T).
  (** and [volatility_curve] *)
  Inductive vsource :=
  | VoNone
  | VoNum (x : T)
  | VoRate (c : rcurve T D P)
  | VoDate (c : dcurve T D)
  | VoFun (f : D -> res T).

  (** optionpricing.py:203-218 within [details]: [Some forward], or None if the entry
      'forward' is missing *)
  Definition fw_value (fuel : nat) (s : fsource) (d : D) : res (option T) :=
    match s with
    | FwNone => Ok None
    | FwNum x => Ok (if ntruthy x then Some x else None)
    | FwPrice c => rmap Some (fc_price c d)
    | FwRate c => rmap Some (if is_interest (rc_cls c) then get_cash_rate fuel c d None None
                             else rc_call c d)
    | FwDate c => rmap Some (dc_val c d)
    | FwFun f => rmap Some (f d)
    end.
  (** 223-232 *)
  Definition vo_value (fuel : nat) (flr : option T) (s : vsource) (d : D) : res (option T) :=
    match s with
    | VoNone => Ok None
    | VoNum x => Ok (if ntruthy x then Some x else None)
    | VoRate c => rmap Some (if is_vol (rc_cls c) then terminal_vol fuel flr c d None
                             else rc_call c d)
    | VoDate c => rmap Some (dc_val c d)
    | VoFun f => rmap Some (f d)
    end.
  (** the attribute [day_count] of the sources, 236-239 *)
  Definition fw_count (s : fsource) : option (D -> D -> res T) :=
    match s with
    | FwPrice c => Some (dc_yf (fc_dc c))
    | FwRate c => Some (rc_yf c)
    | FwDate c => Some (dc_yf c)
    | _ => None
    end.
  Definition vo_count (s : vsource) : option (D -> D -> res T) :=
    match s with
    | VoRate c => Some (rc_yf c)
    | VoDate c => Some (dc_yf c)
    | _ => None
    end.

  (** an OptionPayOffModel object, optionpricing.py:141-164, with the class attributes *)
  Record omodel := mkOM {
    om_formula : formula T;
    om_const : gconst T;
    om_valuation : option D;
    om_forward : fsource;
    om_vol : vsource;
    om_count : option (D -> D -> res T);
    om_bump : bool
  }.

  (** 234-242: the time to expiry; a missing valuation date cannot be subtracted *)
  Definition om_time (m : omodel) (d : D) : res T :=
    let yf := match om_count m with
              | Some f => f
              | None => match vo_count (om_vol m) with
                        | Some f => f
                        | None => match fw_count (om_forward m) with
                                  | Some f => f
                                  | None => d_yf
                                  end
                        end
              end in
    match om_valuation m with
    | Some v => yf v d
    | None => Err TypeError
    end.

  (** the entries of the dict returned by [details] which the code reads back,
      optionpricing.py:166-169, 193-245 (ids and tenor omitted) *)
  Record odetails := mkOD {
    od_forward : option T; od_strike : T; od_vol : option T; od_time : T
  }.
  Definition om_details (fuel : nat) (flr : option T) (m : omodel) (d : D) (strike : option T)
    : res odetails :=
    f <- fw_value fuel (om_forward m) d ;;
    let k := match strike with
             | Some k => k
             | None => match f with Some f => f | None => n0 end
             end in
    v <- vo_value fuel flr (om_vol m) d ;;
    t <- om_time m d ;;
    Ok (mkOD f k v t).

  (** [not vol or not time] *)
  Definition degenerate (x : odetails) : bool :=
    match od_vol x with None => true | Some v => negb (ntruthy v) end || negb (ntruthy (od_time x)).
  (** arithmetic with None raises TypeError; the constant greeks of the intrinsic classes do
      not use the forward, so that Python returns them for a missing forward as well *)
  Definition number (x : option T) : res T :=
    match x with Some a => Ok a | None => Err TypeError end.

  Section Methods.
    Variables (fuel : nat) (flr : option T) (m : omodel).
    Let price := call_price (om_formula m).
    Let c := om_const m.

    (** optionpricing.py:247-258 *)
    Definition get_call_value (d : D) (strike : option T) : res T :=
      x <- om_details fuel flr m d strike ;;
      f <- number (od_forward x) ;;
      if degenerate x then Ok (nmax (f - od_strike x) n0)
      else v <- number (od_vol x) ;; price (od_time x) (od_strike x) f v.
    (** 260-275 *)
    Definition get_put_value (d : D) (strike : option T) : res T :=
      x <- om_details fuel flr m d strike ;;
      f <- number (od_forward x) ;;
      if degenerate x then Ok (nmax (od_strike x - f) n0)
      else v <- number (od_vol x) ;;
           c <- price (od_time x) (od_strike x) f v ;;
           Ok (od_strike x - f + c).
    (** 277-300 *)
    Definition get_call_delta (d : D) (strike : option T) : res T :=
      x <- om_details fuel flr m d strike ;;
      f <- number (od_forward x) ;;
      let k := od_strike x in let t := od_time x in
      if degenerate x then Ok (if f <? k then n0 else n1 * delta_scale c)
      else
        v <- number (od_vol x) ;;
        a <- (if om_bump m then Ok None else call_delta (om_formula m) (Ok t) k f v) ;;
        match a with
        | Some delta => Ok (delta * delta_scale c)
        | None =>
            up <- price t k (f + delta_shift c) v ;;
            at_ <- price t k f v ;;
            q <- ndiv (up - at_) (delta_shift c) ;;
            Ok (q * delta_scale c)
        end.
    (** 302-321 *)
    Definition get_put_delta (d : D) (strike : option T) : res T :=
      x <- get_call_delta d strike ;; Ok (x - n1 * delta_scale c).
    (** 323-347: the analytic gamma gets the date instead of the time *)
    Definition get_call_gamma (d : D) (strike : option T) : res T :=
      x <- om_details fuel flr m d strike ;;
      let k := od_strike x in let t := od_time x in
      if degenerate x then Ok n0
      else
        v <- number (od_vol x) ;;
        f <- number (od_forward x) ;;
        a <- (if om_bump m then Ok None else call_gamma (om_formula m) (date_num d) k f v) ;;
        match a with
        | Some g => Ok (g * npow (delta_scale c) 2)
        | None =>
            up <- price t k (f + delta_shift c) v ;;
            at_ <- price t k f v ;;
            dn <- price t k (f - delta_shift c) v ;;
            q <- ndiv (delta_scale c) (delta_shift c) ;;
            Ok ((up - n_ofZ 2 * at_ + dn) * npow q 2)
        end.
    (** 349-364 *)
    Definition get_put_gamma := get_call_gamma.
    (** 366-389: the bumped vega subtracts the price with the date as time *)
    Definition get_call_vega (d : D) (strike : option T) : res T :=
      x <- om_details fuel flr m d strike ;;
      let k := od_strike x in let t := od_time x in
      if degenerate x then Ok n0
      else
        v <- number (od_vol x) ;;
        f <- number (od_forward x) ;;
        a <- (if om_bump m then Ok None else call_vega (om_formula m) (Ok t) k f v) ;;
        match a with
        | Some g => Ok (g * vega_scale c)
        | None =>
            up <- price t k f (v + vega_shift c) ;;
            t' <- date_num d ;;
            at_ <- price t' k f v ;;
            q <- ndiv (vega_scale c) (vega_shift c) ;;
            Ok ((up - at_) * q)
        end.
    (** 391-406 *)
    Definition get_put_vega := get_call_vega.
    (** 408-430: the analytic theta gets the date, the bumped one is not divided by
        the shift *)
    Definition get_call_theta (d : D) (strike : option T) : res T :=
      x <- om_details fuel flr m d strike ;;
      let k := od_strike x in let t := od_time x in
      if degenerate x then Ok n0
      else
        v <- number (od_vol x) ;;
        f <- number (od_forward x) ;;
        a <- (if om_bump m then Ok None else call_theta (om_formula m) (date_num d) k f v) ;;
        match a with
        | Some g => Ok (g * theta_scale c)
        | None =>
            up <- price (t + theta_shift c) k f v ;;
            at_ <- price t k f v ;;
            Ok ((up - at_) * theta_scale c)
        end.
    (** 432-443 *)
    Definition get_put_theta := get_call_theta.
  End Methods.

  (** truth value of the sources: [x or y] *)
  Definition fw_or (a b : fsource) : fsource :=
    match a with
    | FwNone => b
    | FwNum x => if ntruthy x then a else b
    | _ => a
    end.
  Definition vo_or (a b : vsource) : vsource :=
    match a with
    | VoNone => b
    | VoNum x => if ntruthy x then a else b
    | _ => a
    end.
  (** BinaryOptionPayOffModel(pricing_formula, strike_shift, ...), 450-486; the argument
      [strike_shift] is not used, the class attribute STRIKE_SHIFT is.  [inner] is an
      OptionPayOffModel. *)
  Definition binary_new (inner : omodel) (strike_shift : option T) (valuation : option D)
             (fw : fsource) (vo : vsource) (count : option (D -> D -> res T)) : omodel :=
    mkOM (FSpread default_strike_shift (call_price (om_formula inner))) default_gconst
         (match valuation with
          | Some v => if d_truthy v then valuation else om_valuation inner
          | None => om_valuation inner
          end)
         (fw_or fw (om_forward inner)) (vo_or vo (om_vol inner))
         (match count with Some _ => count | None => om_count inner end) true.
End Options.
Arguments omodel T D P : clear implicits.
Arguments fsource T D P : clear implicits.
Arguments vsource T D P : clear implicits.
