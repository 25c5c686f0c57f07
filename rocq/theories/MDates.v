(** Dates, periods and day counts: model of /repo/dcf/daycount.py and of the date
    arithmetic the curves rely on.

    The code works with any date type (float, datetime.date, BusinessDate of the
    package businessdate).  It uses of a date: comparisons, object identity ([is]),
    truth value, adding and subtracting a period, the difference of two dates.
    A [DateSys] collects these operations; the laws the proofs need are stated
    separately in SDates.v and proved there for both concrete kinds of dates below. *)
From Coq Require Import List Bool ZArith String.
From Verif Require Import Num Py.
Import ListNotations.

(** the string periods occurring as class attributes or literals:
    '1D' curve.py:363, '1d' volatilitycurve.py:24 and interestratecurve.py:305,
    '3M' curve.py:653, '1Y' creditcurve.py:35, '1y' creditcurve.py:51,
    '10y' volatilitycurve.py:92.  Periods are case insensitive. *)
Inductive tenor := Tday | T3months | Tyear | T10years.

Class DateSys (T D P : Type) := {
  d_ltb : D -> D -> bool;          (* d < d' *)
  d_leb : D -> D -> bool;          (* d <= d' *)
  d_eqb : D -> D -> bool;          (* d == d' *)
  d_is : D -> D -> bool;           (* d is d' *)
  d_truthy : D -> bool;            (* if d: *)
  p_truthy : P -> bool;            (* if p: *)
  d_add : D -> P -> res D;         (* d + p *)
  d_sub : D -> P -> res D;         (* d - p *)
  d_diff : D -> D -> res P;        (* d - d' *)
  d_yf : D -> D -> res T;          (* daycount.day_count, 16-56 *)
  p_str : tenor -> P               (* a string literal used as period *)
}.

(** [DAYS_IN_YEAR = 365.25], daycount.py:13 *)
Definition days_in_year {T} {N : Num T} : T := n_ratio 1461 4.

(** daycount.py:48-54: day based dates, here ordinals *)
Definition yf_days {T} {N : Num T} (s e : Z) : res T :=
  ndiv (n_ofZ (e - s)) days_in_year.
(** daycount.py:51,56: float dates *)
Definition yf_float {T} {N : Num T} (s e : T) : res T := Ok (nsub e s).

(** * Float dates: adding a float works, adding a string is a TypeError *)
Inductive fperiod (T : Type) := FP (x : T) | FStr (t : tenor).
Arguments FP {T} x.
Arguments FStr {T} t.

#[global] Instance FloatDates {T} {N : Num T} : DateSys T T (fperiod T) := {|
  d_ltb := nltb; d_leb := nleb; d_eqb := neqb;
  (* two equal floats need not be the same object; the model identifies them *)
  d_is := neqb;
  d_truthy := ntruthy;
  p_truthy := fun p => match p with FP x => ntruthy x | FStr _ => true end;
  d_add := fun d p => match p with FP x => Ok (nadd d x) | FStr _ => Err TypeError end;
  d_sub := fun d p => match p with FP x => Ok (nsub d x) | FStr _ => Err TypeError end;
  d_diff := fun d d' => Ok (FP (nsub d d'));
  d_yf := yf_float;
  p_str := FStr
|}.

(** * Day based dates: an ordinal and an object identity.
    Months are added in the proleptic Gregorian calendar, the day clipped to the
    length of the month, as businessdate does.  The difference of two dates is a number of
    days, as for datetime.date; businessdate splits it into years, months and days.  Theorems
    using differences (sums of curves, start dates without origin) are stated for every
    [DateSys]. *)
Record bdate := BD { bd_day : Z; bd_id : nat }.
(** a period of [months] and [days] *)
Record bperiod := BP { bp_months : Z; bp_days : Z }.

Section Civil.
  Open Scope Z_scope.
  Definition leap (y : Z) : bool :=
    (y mod 4 =? 0) && (negb (y mod 100 =? 0) || (y mod 400 =? 0)).
  Definition month_len (y m : Z) : Z :=
    if m =? 2 then (if leap y then 29 else 28)
    else if (m =? 4) || (m =? 6) || (m =? 9) || (m =? 11) then 30 else 31.
  (** days since 1970-01-01 *)
  Definition days_from_civil (y m d : Z) : Z :=
    let y' := if m <=? 2 then y - 1 else y in
    let era := y' / 400 in
    let yoe := y' - era * 400 in
    let doy := (153 * (m + (if 2 <? m then -3 else 9)) + 2) / 5 + d - 1 in
    let doe := yoe * 365 + yoe / 4 - yoe / 100 + doy in
    era * 146097 + doe - 719468.
  Definition civil_from_days (z : Z) : Z * Z * Z :=
    let z := z + 719468 in
    let era := z / 146097 in
    let doe := z - era * 146097 in
    let yoe := (doe - doe / 1460 + doe / 36524 - doe / 146096) / 365 in
    let doy := doe - (365 * yoe + yoe / 4 - yoe / 100) in
    let mp := (5 * doy + 2) / 153 in
    let d := doy - (153 * mp + 2) / 5 + 1 in
    let m := if mp <? 10 then mp + 3 else mp - 9 in
    (yoe + era * 400 + (if m <=? 2 then 1 else 0), m, d).
  Definition add_months (z n : Z) : Z :=
    match civil_from_days z with
    | (y, m, d) =>
        let k := y * 12 + (m - 1) + n in
        let y' := k / 12 in
        let m' := k mod 12 + 1 in
        days_from_civil y' m' (Z.min d (month_len y' m'))
    end.
  Definition tenor_period (t : tenor) : bperiod :=
    match t with
    | Tday => BP 0 1 | T3months => BP 3 0 | Tyear => BP 12 0 | T10years => BP 120 0
    end.
  (** BusinessDate + period: months first, then days.  A result is a new object;
      identity 0 stands for "fresh" and is never identical to a stored one below *)
  Definition bd_plus (z : Z) (p : bperiod) : Z :=
    (if bp_months p =? 0 then z else add_months z (bp_months p)) + bp_days p.
End Civil.

#[global] Instance DayDates {T} {N : Num T} : DateSys T bdate bperiod := {|
  d_ltb := fun a b => (bd_day a <? bd_day b)%Z;
  d_leb := fun a b => (bd_day a <=? bd_day b)%Z;
  d_eqb := fun a b => (bd_day a =? bd_day b)%Z;
  d_is := fun a b => (bd_day a =? bd_day b)%Z && (bd_id a =? bd_id b)%nat;
  d_truthy := fun _ => true;
  p_truthy := fun p => negb ((bp_months p =? 0)%Z && (bp_days p =? 0)%Z);
  d_add := fun d p => Ok (BD (bd_plus (bd_day d) p) 0);
  d_sub := fun d p => Ok (BD (bd_plus (bd_day d) (BP (- bp_months p) (- bp_days p))) 0);
  d_diff := fun d d' => Ok (BP 0 (bd_day d - bd_day d'));
  d_yf := fun s e => yf_days (bd_day s) (bd_day e);
  p_str := tenor_period
|}.

(** * Day count conventions of a curve: [day_count=None], a function, or a string
    looked up in the class attribute [DAY_COUNT] (curve.py:359, 500-505) *)
Inductive dcspec (T D : Type) :=
| DcDefault
| DcFun (name : string) (f : D -> D -> res T)
| DcName (name : string).
Arguments DcDefault {T D}.
Arguments DcFun {T D} name f.
Arguments DcName {T D} name.

(** the class attribute [DAY_COUNT], a dict from names to functions; empty unless the
    user fills it.  Functions as keys are not modelled. *)
Class DayCounts (T D : Type) := dc_registry : list (string * (D -> D -> res T)).

Section DayCount.
  Context {T D P : Type} {N : Num T} {DS : DateSys T D P} {DC : DayCounts T D}.

  (** [DateCurve.day_count(start, end)] with both dates, curve.py:500-505; calling a
      string is a TypeError *)
  Definition dc_apply (s : dcspec T D) (a b : D) : res T :=
    match s with
    | DcDefault => d_yf a b
    | DcFun _ f => f a b
    | DcName n => match assoc String.eqb n dc_registry with
                  | Some f => f a b
                  | None => Err TypeError
                  end
    end.

  (** [kwargs.day_count], curve.py:154-164: a function is replaced by its __name__ *)
  Definition dc_kwarg (s : dcspec T D) : dcspec T D :=
    match s with DcFun n _ => DcName n | _ => s end.

  (** [day_count or other_day_count]: None and '' are falsy *)
  Definition dc_or (s s' : dcspec T D) : dcspec T D :=
    match s with
    | DcDefault => s'
    | DcName n => if String.eqb n "" then s' else s
    | DcFun _ _ => s
    end.

  (** [origin or other] *)
  Definition origin_or (o o' : option D) : option D :=
    match o with Some d => if d_truthy d then o else o' | None => o' end.

  (** [min(domain)], [max(domain)]: first of the extremal elements; ValueError when empty *)
  Definition d_min (l : list D) : res D :=
    match l with
    | [] => Err ValueError
    | x :: l' => Ok (fold_left (fun m y => if d_ltb y m then y else m) l' x)
    end.
  Definition d_max (l : list D) : res D :=
    match l with
    | [] => Err ValueError
    | x :: l' => Ok (fold_left (fun m y => if d_ltb m y then y else m) l' x)
    end.
End DayCount.
