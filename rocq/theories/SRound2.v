(** Specification of curves of discount factors in double precision: the platform's logarithm
    and the value between the data. *)
From Coq Require Import List Reals Floats.SpecFloat.
From Verif Require Import Num Py MFloat Spec SInterpolation SCurve SRound.
Local Open Scope R_scope.

(** the platform's math.log, where it returns at a positive double, misses the natural
    logarithm by at most eta times its absolute value *)
Definition log_within (lib : libm) (eta : R) : Prop :=
  forall y w, is_double y -> finite_float y -> 0 < float_value y -> lm_log lib y = Ok w ->
    is_double w /\ finite_float w /\ Rabs (float_value w - ln (float_value y)) <= eta * Rabs (ln (float_value y)).

(** the discount factor at time t of a curve with points (time, factor): the given one at
    time zero, and exp (z t) elsewhere where z is the piecewise linear function of the
    logarithms of the factors divided by their times, constant outside of the data *)
Definition factor_value (ps : points) (t e : R) : Prop :=
  t = 0 /\ In (0, e) ps \/
  t <> 0 /\ exists z, piecewise_linear (transform (fun x y => ln y / x) (without_zero ps)) t z /\ e = exp (z * t).
