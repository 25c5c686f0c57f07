(** Model of /repo/dcf/curves/curve.py: Curve, DateCurve, Price, ForwardCurve.

    Simplifications common to this file: domains are lists (the code also accepts
    tuples, whose concatenation with lists would be a TypeError); the class registry
    [INTERPOLATIONS] (147) is empty and the [interpolation] argument is [None], one
    of the classes of dcf/interpolation.py or a string; a value [None] among the data of a new
    curve is a TypeError at construction (in Python it may surface at the first
    evaluation only). *)
From Coq Require Import String List Bool ZArith.

From Verif Require Import Num Py MCompounding MInterpolation MDates.
Import ListNotations.

(** a Python value used as a float: None is a TypeError *)
Definition some_float {T} (v : option T) : res T :=
  match v with Some x => Ok x | None => Err TypeError end.

(** [kwargs.interpolation], curve.py:154-164: a class is replaced by its __name__ *)
Definition interp_kwarg (i : option ispec) : option ispec :=
  match i with Some s => Some (SName (spec_name s)) | None => None end.

(** [interpolation or data.kwargs.interpolation]; None and '' are falsy *)
Definition interp_or (i j : option ispec) : option ispec :=
  match i with
  | Some (SName n) => if String.eqb n ""%string then interp_kwarg j else i
  | Some _ => i
  | None => interp_kwarg j
  end.

Section Curve.
  Context {T : Type} {N : Num T}.
  Open Scope num_scope.

  (** * Curve, curve.py:145-353; [c_interp] is [_interpolation] *)
  Record curve := mkC { c_interp : option ispec; c_fn : fn T; c_domain : list T }.

  (** [_INTERPOLATION = linear_scheme], curve.py:151 *)
  Definition curve_spec (i : option ispec) : ispec :=
    match i with Some s => s | None => linear_scheme end.

  (** curve.py:254-265 [_update]: the interpolation function of sorted data and the
      sorted domain.  [dflt] is the class attribute [_INTERPOLATION]. *)
  Definition update_fn (spec : ispec) (domain data : list T) : res (fn T * list T) :=
    let (xs, ys) := split (sort pair_ltb (combine domain data)) in
    f <- fn_new spec xs ys ;; Ok (f, xs).

  (** curve.py:180-252 [__init__] with lists of floats *)
  Definition curve_new (i : option ispec) (domain data : list T) : res curve :=
    if negb (length domain =? length data)%nat then Err ValueError
    else p <- update_fn (curve_spec i) domain data ;;
         Ok (mkC i (fst p) (snd p)).

  (** curve.py:288-291 [__call__] *)
  Definition curve_call (c : curve) (x : T) : res (option T) := fn_call (c_fn c) x.
  (** the same as a number *)
  Definition curve_val (c : curve) (x : T) : res T := v <- curve_call c x ;; some_float v.

  (** curve.py:267-268, 273-276 [__contains__], [__getitem__] *)
  Definition curve_getitem (c : curve) (x : T) : res (option T) :=
    if mem neqb x (c_domain c) then curve_call c x else Err KeyError.

  (** curve.py:278-286 [__setitem__] *)
  Definition curve_setitem (c : curve) (key value : T) : res curve :=
    data <- mapM (curve_val c) (c_domain c) ;;
    let (domain', data') :=
      match index_of neqb key (c_domain c) with
      | Some i => (c_domain c, set_nth i value data)
      | None => (c_domain c ++ [key], data ++ [value])
      end in
    p <- update_fn (curve_spec (c_interp c)) domain' data' ;;
    Ok (mkC (c_interp c) (fst p) (snd p)).

  (** curve.py:293-296, 298-301, 303-306 [__add__], [__sub__], [__mul__] *)
  Definition curve_zip (op : T -> T -> T) (a b : curve) : res curve :=
    let xs := sorted_set nltb neqb (c_domain a ++ c_domain b) in
    ys <- mapM (fun x => u <- curve_val a x ;; v <- curve_val b x ;; Ok (op u v)) xs ;;
    curve_new (c_interp a) xs ys.
  Definition curve_add := curve_zip nadd.
  Definition curve_sub := curve_zip nsub.
  Definition curve_mul := curve_zip nmul.

  (** curve.py:308-317 [__truediv__], [__div__]; [not None] is True as well *)
  Definition curve_div (a b : curve) : res curve :=
    let xs := sorted_set nltb neqb (c_domain a ++ c_domain b) in
    zs <- mapM (fun x => v <- curve_call b x ;;
                 Ok (match v with Some y => negb (ntruthy y) | None => true end)) xs ;;
    if existsb (fun z => z) zs then Err ZeroDivisionError
    else ys <- mapM (fun x => u <- curve_val a x ;; v <- curve_val b x ;; ndiv u v) xs ;;
         curve_new (c_interp a) xs ys.

  (** curve.py:237-240: [Curve(x_list, curve)]: the other curve sampled at x_list *)
  Definition curve_sample (c : curve) (i : option ispec) (xs : list T) : res curve :=
    ys <- mapM (curve_val c) xs ;; curve_new (interp_or i (c_interp c)) xs ys.

  (** curve.py:234-236: [Curve(curve)] *)
  Definition curve_copy (c : curve) : res curve := curve_sample c None (c_domain c).

  (** curve.py:341-353 [shifted] *)
  Definition curve_shifted (c : curve) (delta : T) : res curve :=
    let xs := if ntruthy delta then map (fun x => x + delta) (c_domain c) else c_domain c in
    curve_sample c None xs.
End Curve.
Arguments curve T : clear implicits.

Section DateCurve.
  Context {T D P : Type} {N : Num T} {DS : DateSys T D P} {DC : DayCounts T D}.
  Open Scope num_scope.

  (** * DateCurve, curve.py:356-578.  [dc_dflt] is the class attribute
      [_INTERPOLATION] of the class of the object *)
  Record dcurve := mkD {
    dc_dflt : ispec; dc_interp : option ispec; dc_fn : fn T;
    dc_domain : list D; dc_origin0 : option D; dc_count : dcspec T D;
    dc_fix : list (D * T) }.

  (** curve.py:444-450 [origin]; None when there is nothing *)
  Definition dom_origin (o : option D) (domain : list D) : option D :=
    match o with Some d => Some d | None => hd_error domain end.
  Definition dc_origin (c : dcurve) : option D := dom_origin (dc_origin0 c) (dc_domain c).

  (** curve.py:491-505 [day_count(start, end)] *)
  Definition dc_yf (c : dcurve) (a b : D) : res T := dc_apply (dc_count c) a b.
  (** curve.py:498-499 [day_count(start)]; with origin None the difference of a date and
      None is a TypeError *)
  Definition dc_time (c : dcurve) (d : D) : res T :=
    match dc_origin c with Some o => dc_yf c o d | None => Err TypeError end.

  Definition dc_spec (dflt : ispec) (i : option ispec) : ispec :=
    match i with Some s => s | None => dflt end.

  (** curve.py:452-455 [_update] on top of 254-265; the year fractions are computed with
      the attributes the object has before the call (at construction [_domain] is set
      first, 432) *)
  Definition dc_update (c : dcurve) (domain : list D) (data : list T) : res dcurve :=
    ts <- mapM (dc_time c) domain ;;
    p <- update_fn (dc_spec (dc_dflt c) (dc_interp c)) ts data ;;
    Ok (mkD (dc_dflt c) (dc_interp c) (fst p) domain (dc_origin0 c) (dc_count c) (dc_fix c)).

  (** an object under construction: [_func] not yet set *)
  Definition no_fn : fn T := FBase (mkI Kno [] [] None None).

  (** curve.py:366-436 [__init__] with lists *)
  Definition dc_new (dflt : ispec) (domain : list D) (data : list T) (i : option ispec)
             (origin : option D) (count : dcspec T D) : res dcurve :=
    if negb (length domain =? length data)%nat then Err ValueError
    else dc_update (mkD dflt i no_fn domain origin count []) domain data.

  (** curve.py:457-462 [__call__]: fixings first *)
  Definition dc_call (c : dcurve) (x : D) : res (option T) :=
    match assoc d_eqb x (dc_fix c) with
    | Some v => Ok (Some v)
    | None => t <- dc_time c x ;; fn_call (dc_fn c) t
    end.
  Definition dc_val (c : dcurve) (x : D) : res T := v <- dc_call c x ;; some_float v.

  (** curve.py:267-276 *)
  Definition dc_getitem (c : dcurve) (x : D) : res (option T) :=
    if mem d_eqb x (dc_domain c) then dc_call c x else Err KeyError.

  (** curve.py:278-286 [__setitem__] for a given evaluation [val] of the curve *)
  Definition dc_setitem_with (val : D -> res T) (c : dcurve) (key : D) (value : T) : res dcurve :=
    data <- mapM val (dc_domain c) ;;
    match index_of d_eqb key (dc_domain c) with
    | Some i => dc_update c (dc_domain c) (set_nth i value data)
    | None => dc_update c (dc_domain c ++ [key]) (data ++ [value])
    end.
  Definition dc_setitem (c : dcurve) := dc_setitem_with (dc_val c) c.

  (** [c.fixings[d] = v], curve.py:436 *)
  Definition dc_set_fixing (c : dcurve) (d : D) (v : T) : dcurve :=
    mkD (dc_dflt c) (dc_interp c) (dc_fn c) (dc_domain c) (dc_origin0 c) (dc_count c)
        (assoc_set d_eqb d v (dc_fix c)).

  (** curve.py:426-430: [DateCurve(domain, date_curve)]: sampled at [domain];
      [kwargs] (154-164) evaluates the curve on its own domain (in Python only if one of
      the other arguments is not given) *)
  Definition dc_sample (c : dcurve) (domain : list D) (i : option ispec)
             (origin : option D) (count : dcspec T D) : res dcurve :=
    _ <- mapM (dc_call c) (dc_domain c) ;;
    data <- mapM (dc_val c) domain ;;
    dc_new (dc_dflt c) domain data (interp_or i (dc_interp c))
           (origin_or origin (dc_origin0 c)) (dc_or count (dc_kwarg (dc_count c))).

  (** curve.py:423-436 then 237-243: [DateCurve(date_curve)].  [data] is the curve and
      [domain] its domain, [_origin] and [_day_count] are the arguments; Curve.__init__
      then replaces the domain by the year fractions of the dates ([data.day_count(d)])
      before calling [_update], so that these numbers are taken as dates.  This is
      possible for float dates only: [inj] turns a number into a date. *)
  Definition dc_copy (inj : T -> res D) (c : dcurve) (i : option ispec)
             (origin : option D) (count : dcspec T D) : res dcurve :=
    _ <- mapM (dc_call c) (dc_domain c) ;;
    data <- mapM (dc_val c) (dc_domain c) ;;
    ts <- mapM (dc_time c) (dc_domain c) ;;
    domain <- mapM inj ts ;;
    dc_update (mkD linear_scheme (interp_or i (dc_interp c)) no_fn (dc_domain c) origin count [])
              domain data.

  (** curve.py:507-515 [to_curve] and 237-243: [Curve(date_curve)] *)
  Definition dc_to_curve (c : dcurve) : res (curve T) :=
    _ <- mapM (dc_call c) (dc_domain c) ;;
    data <- mapM (dc_val c) (dc_domain c) ;;
    ts <- mapM (dc_time c) (dc_domain c) ;;
    curve_new (interp_kwarg (dc_interp c)) ts data.

  (** curve.py:341-353 [shifted] on a DateCurve *)
  Definition dc_shifted (c : dcurve) (delta : P) : res dcurve :=
    xs <- (if p_truthy delta then mapM (fun x => d_add x delta) (dc_domain c)
           else Ok (dc_domain c)) ;;
    dc_sample c xs None None DcDefault.

  (** curve.py:464-483 with 293-306: the result is built by [self.__class__(x_list,
      y_list, self._interpolation)]; the second construction (467, 474, 481) is
      discarded but may raise *)
  Definition dc_zip (op : T -> T -> T) (a b : dcurve) : res dcurve :=
    match dc_origin a, dc_origin b with
    | Some oa, Some ob =>
        delta <- d_diff oa ob ;;
        b' <- dc_shifted b delta ;;
        let xs := sorted_set d_ltb d_eqb (dc_domain a ++ dc_domain b') in
        ys <- mapM (fun x => u <- dc_val a x ;; v <- dc_val b' x ;; Ok (op u v)) xs ;;
        new <- dc_new (dc_dflt a) xs ys (dc_interp a) None DcDefault ;;
        ns <- mapM (dc_val new) (dc_domain new) ;;
        _ <- dc_new (dc_dflt a) (dc_domain new) ns (dc_interp new) (Some oa) (dc_count a) ;;
        Ok new
    | _, _ => Err TypeError
    end.

  (** curve.py:485-489 [__div__]: ends with the assignment of a read-only property *)
  Definition dc_div (a b : dcurve) : res dcurve :=
    match dc_origin a, dc_origin b with
    | Some oa, Some ob =>
        delta <- d_diff oa ob ;;
        b' <- dc_shifted b delta ;;
        let xs := sorted_set d_ltb d_eqb (dc_domain a ++ dc_domain b') in
        zs <- mapM (fun x => v <- dc_call b' x ;;
                 Ok (match v with Some y => negb (ntruthy y) | None => true end)) xs ;;
        if existsb (fun z => z) zs then Err ZeroDivisionError
        else ys <- mapM (fun x => u <- dc_val a x ;; v <- dc_val b' x ;; ndiv u v) xs ;;
             _ <- dc_new (dc_dflt a) xs ys (dc_interp a) None DcDefault ;;
             Err AttributeError
    | _, _ => Err TypeError
    end.

  (** curve.py:541-549, the loop of [integrate] (also interestratecurve.py:369-377 and
      creditcurve.py:258-266): adds value * year fraction step by step *)
  Fixpoint integrate_loop (fuel : nat) (val : D -> res T) (yf : D -> D -> res T) (step : P)
           (current stop : D) (acc : T) : res T :=
    match fuel with
    | O => Err OutOfFuel
    | S n =>
        next <- d_add current step ;;
        if d_ltb next stop then
          v <- val current ;;
          t <- yf current next ;;
          integrate_loop n val yf step next stop (acc + v * t)
        else
          v <- val current ;;
          t <- yf current stop ;;
          Ok (acc + v * t)
    end.

  (** curve.py:517-551 [integrate] without scipy (the [ImportError] branch); [val] is
      [self.__call__] and [step] the class attribute [_TIME_SHIFT] *)
  Definition integrate (fuel : nat) (val : D -> res T) (yf : D -> D -> res T) (step : P)
             (start stop : D) : res T :=
    value <- integrate_loop fuel val yf step start stop n0 ;;
    t <- yf start stop ;;
    ndiv value t.

  (** curve.py:553-578 [derivative] without scipy *)
  Definition derivative (val : D -> res T) (yf : D -> D -> res T) (step : P) (start : D) : res T :=
    stop <- d_add start step ;;
    b <- val stop ;;
    a <- val start ;;
    t <- yf start stop ;;
    ndiv (b - a) t.

  (** * ForwardCurve, curve.py:581-648.  [yield_curve] is None, a function or an object
      with [get_discount_factor]; a float y becomes [exp(-day_count(x) * y)] when the
      curve has an origin (615-616).  Without origin the float stays and is not
      callable. *)
  Inductive yieldc :=
  | YNone
  | YFun (f : D -> res T)
  | YFloat (y : T)
  | YCurve (df : D -> D -> res T).

  Record fcurve := mkF { fc_dc : dcurve; fc_yield : yieldc }.

  (** curve.py:585-619 with lists; [_INTERPOLATION = log_linear_scheme] (583) *)
  Definition fc_new (domain : list D) (data : list T) (i : option ispec) (origin : option D)
             (count : dcspec T D) (y : yieldc) : res fcurve :=
    c <- dc_new log_linear_scheme domain data i origin count ;;
    Ok (mkF c y).
  (** curve.py:605-608: a single float price at origin, and 609-613: a [Price] *)
  Definition fc_new_price (price : T) (i : option ispec) (origin : D)
             (count : dcspec T D) (y : yieldc) : res fcurve :=
    fc_new [origin] [price] i (Some origin) count y.

  (** curve.py:641-646: the discount factor used after the last date *)
  Definition fc_df (c : fcurve) (last value_date : D) : res T :=
    match fc_yield c with
    | YNone => Ok n1
    | YCurve df => df last value_date
    | YFun f => a <- f value_date ;; b <- f last ;; ndiv a b
    | YFloat y =>
        match dc_origin (fc_dc c) with
        | None => Err TypeError
        | Some _ =>
            tv <- dc_time (fc_dc c) value_date ;;
            a <- nexp (nopp tv * y) ;;
            tl <- dc_time (fc_dc c) last ;;
            b <- nexp (nopp tl * y) ;;
            ndiv a b
        end
    end.

  (** curve.py:628-648 [get_forward_price], also 622-626 [__call__] *)
  Definition fc_price (c : fcurve) (value_date : D) : res T :=
    last <- last_res (dc_domain (fc_dc c)) ;;
    if d_leb value_date last then dc_val (fc_dc c) value_date
    else p <- dc_val (fc_dc c) last ;;
         df <- fc_df c last value_date ;;
         ndiv p df.
End DateCurve.
Arguments dcurve T D : clear implicits.
Arguments fcurve T D : clear implicits.
Arguments yieldc T D : clear implicits.
