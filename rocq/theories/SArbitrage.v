(** Specification for C107: forward rates of piecewise linear zero rates. *)
From Coq Require Import Reals List.
From Verif Require Import SInterpolation.
Open Scope R_scope.

(** slope of the line through (a,ya) and (b,yb) *)
Definition slope (a ya b yb : R) : R := (yb - ya) / (b - a).

(** [ps] are times with continuous zero rates: the first and the last rate are not negative,
    and neither is the instantaneous forward rate r(t) + t r'(t) at both ends of every
    segment *)
Definition forwards_nonneg (ps : points) : Prop :=
  (forall a y, In (a, y) ps -> is_first ps a \/ is_last ps a -> 0 <= y) /\
  (forall a ya b yb, consecutive ps a ya b yb ->
     0 <= ya + a * slope a ya b yb /\ 0 <= yb + b * slope a ya b yb).
