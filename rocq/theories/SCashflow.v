(** Specification vocabulary of the cash flow properties. *)
From Coq Require Import Reals List Bool ZArith.
From Verif Require Import Num Py MDates MCurve MRateCurve MOption MCashflow.
Import ListNotations.
Open Scope R_scope.

Section S.
  Context {D P : Type} {DS : DateSys R D P} {DC : DayCounts R D}.

  (** an offset that changes nothing: none, or a period that is false *)
  Definition no_offset (o : option P) : Prop :=
    match o with None => True | Some p => p_truthy p = false end.
  (** [d'] is the date [d] moved back by the offset *)
  Definition moved_back (d : D) (o : option P) (d' : D) : Prop :=
    match o with
    | None => d' = d
    | Some p => if p_truthy p then d_sub d p = Ok d' else d' = d
    end.

  (** a cash flow list as its constructor leaves it; every class of the library builds its
      object by this constructor *)
  Definition made (l : cflist R D P) : Prop :=
    exists dates amounts origin attr rated, cf_new dates amounts origin attr rated = Ok l.

  (** the list pays [f] at the dates equal to [d] *)
  Definition pays (fuel : nat) (flr : option R) (l : cflist R D P) (d : D) (x : R) : Prop :=
    forall d', d_eqb d' d = true -> cf_get fuel flr l d' = Ok x.

  (** the forward rate at the fixing date d: zero without forward, a number is the rate
      itself, interest rate curves give their simple (cash) rate for their tenor, other
      curves and functions their value *)
  Definition forward_at (fuel : nat) (s : fsource R D P) (d : D) (f : R) : Prop :=
    match s with
    | FwNone => f = 0
    | FwNum x => f = x
    | FwPrice c => fc_price c d = Ok f
    | FwRate c => if is_interest (rc_cls c) then get_cash_rate fuel c d None None = Ok f
                  else rc_call c d = Ok f
    | FwDate c => dc_val c d = Ok f
    | FwFun g => g d = Ok f
    end.

  (** the call [C k] resp. put [C k] values of strike k the model gives at expiry d *)
  Definition option_value (fuel : nat) (flr : option R) (m : omodel R D P) (d : D) (put : bool)
             (k : option R) (v : R) : Prop :=
    (if put then get_put_value fuel flr m d k else get_call_value fuel flr m d k) = Ok v.

  (** the model values options at their intrinsic value *)
  Definition intrinsic (m : omodel R D P) : Prop :=
    om_formula m = FIntrinsic \/ om_vol m = VoNone \/ om_vol m = VoNum 0.
End S.
