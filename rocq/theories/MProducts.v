(** Model of /repo/dcf/cashflows/products.py.

    Business dates and their schedules belong to the package businessdate, which is not part
    of the repository: [sched] is [Some f] if the start date is a BusinessDate, [f start end
    period] being the adjusted schedule without its first date (29-38; convention and
    holidays are part of [f]; an end date given as a period is taken as resolved), and
    [None] for any other kind of date.  [times p n] is [p * n]. *)
From Coq Require Import List Bool ZArith.
From Coq Require String.
Import String.StringSyntax.
Delimit Scope string_scope with string.
From Verif Require Import Num Py MDates MCurve MRateCurve MOption MCashflow.
Import ListNotations.

Section Products.
  Context {T D P : Type} {N : Num T} {DS : DateSys T D P} {DC : DayCounts T D}.
  Open Scope num_scope.

  (** products.py:41-45; the loop appends at the end and tests the first entry *)
  Fixpoint fill_dates (times : P -> nat -> res P) (fuel : nat) (start stop : D) (period : P)
           (cnt : nat) (l : list D) : res (list D) :=
    match fuel with
    | O => Err OutOfFuel
    | S n =>
        e <- d_add start period ;;
        first <- nth_res l 0 ;;
        if d_leb e first then
          p <- times period cnt ;;
          d <- d_sub stop p ;;
          fill_dates times n start stop period (S cnt) (l ++ [d])
        else Ok l
    end.
  (** 47-49: [hasattr('adjust', d)], the arguments are swapped: a date is no attribute name *)
  Definition adjust_all (l : list D) : res unit :=
    _ <- mapM (fun _ => Err (A := unit) TypeError) l ;; Ok tt.

  (** products.py:26-50 *)
  Definition interest_payment_dates (sched : option (D -> D -> P -> res (list D)))
             (times : P -> nat -> res P) (fuel : nat) (start stop : D) (period : P) : res (list D) :=
    match sched with
    | Some f => f start stop period
    | None =>
        l <- fill_dates times fuel start stop period 1 [stop] ;;
        _ <- adjust_all (rev l) ;;
        Ok (rev l)
    end.

  (** products.py:100-103 *)
  Fixpoint interest_notionals (outstanding : T) (paybacks : list T) : list T :=
    match paybacks with
    | [] => []
    | p :: l => outstanding :: interest_notionals (outstanding - p) l
    end.

  (** products.py:53-126; [notional]: a number (One) or a list (Many) *)
  Definition bond (sched : option (D -> D -> P -> res (list D))) (times : P -> nat -> res P)
             (fuel : nat) (start stop : D) (period : P) (notional : arg T) (count : dcspec T D)
             (fixed_rate : T) (forward : fsource T D P) (fixing_offset pay_offset : option P)
    : res (leglist T D P) :=
    ds <- interest_payment_dates sched times fuel start stop period ;;
    plan <- match notional with
            | One n => Ok ([start; stop], [nopp n; n], repeat n (length ds))
            | Many l =>
                if negb (length l =? length ds)%nat then Err ValueError
                else Ok (start :: ds, nopp (nsum l) :: l, interest_notionals (nsum l) l)
            end ;;
    let '(dates, amounts, notionals) := plan in
    notional_leg <- fixed_new dates (Many amounts) (Some start) ;;
    coupon_leg <- ratelist_new ds (Many notionals) (Some start) count fixing_offset pay_offset
                    fixed_rate forward ;;
    legs_new [notional_leg; coupon_leg].

  (** products.py:129-206 *)
  Definition interest_rate_swap (sched : option (D -> D -> P -> res (list D)))
             (times : P -> nat -> res P) (fuel : nat) (start stop : D) (period : P) (notional : T)
             (count : dcspec T D) (fixed_rate : T) (forward : fsource T D P)
             (fixing_offset pay_offset : option P) (rec_period : P) (rec_count : dcspec T D)
             (rec_rate : T) (rec_forward : fsource T D P) : res (leglist T D P) :=
    ds <- interest_payment_dates sched times fuel start stop period ;;
    pay_leg <- ratelist_new ds (Many (repeat (nopp notional) (length ds))) (Some start) count
                 fixing_offset pay_offset fixed_rate forward ;;
    ds' <- interest_payment_dates sched times fuel start stop rec_period ;;
    rec_leg <- ratelist_new ds' (Many (repeat notional (length ds'))) (Some start) rec_count
                 fixing_offset pay_offset rec_rate rec_forward ;;
    legs_new [pay_leg; rec_leg].

  (** [-1 * coupon_leg]: a number has no product with a cash flow list, and the class
      CashFlowList (cashflow.py:22-197) has no [__rmul__] *)
  Definition negative_leg (l : cflist T D P) : res (cflist T D P) := Err TypeError.

  (** products.py:209-229; the coupon leg is a RateCashFlowList; [rest] is the rest of
      the function (212-229), which is not modelled: the first line raises always *)
  Definition asset_swap (coupon_leg : cflist T D P)
             (rest : cflist T D P -> res (leglist T D P)) : res (leglist T D P) :=
    pay_leg <- negative_leg coupon_leg ;; rest pay_leg.

End Products.

Section Defaults.
  Context {T : Type} {N : Num T} {DC : DayCounts T T}.
  (** [p * n] of a number *)
  Definition float_times (p : fperiod T) (n : nat) : res (fperiod T) :=
    match p with FP x => Ok (FP (nmul x (n_ofZ (Z.of_nat n)))) | FStr _ => Err TypeError end.
  (** [bond()], products.py:53-63 *)
  Definition default_bond (fuel : nat) : res (leglist T T (fperiod T)) :=
    bond None float_times fuel n0 (n_ofZ 10) (FP n1) (One n1) (DcName "thirty360"%string) n0 FwNone None None.
  (** [interest_rate_swap()], products.py:129-143 *)
  Definition default_swap (fuel : nat) : res (leglist T T (fperiod T)) :=
    interest_rate_swap None float_times fuel n0 (n_ofZ 10) (FP n1) n1 (DcName "thirty360"%string) n0 FwNone
      None None (FP (n_ratio 3 12)) (DcName "actact"%string) n0 FwNone.
End Defaults.
