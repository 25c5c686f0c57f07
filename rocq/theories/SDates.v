(** Specification of dates and day counts: what "a date type" and "an additive day
    count" mean in the property theorems. *)
From Coq Require Import Reals Bool.
From Verif Require Import Num MDates.
Open Scope R_scope.

(** Dates are ordered points in time: [tm d] is the time of a date (in years, from any
    fixed zero).  Comparison of dates is comparison of times, an object equals itself,
    identical objects are equal, and the default day count is the time difference. *)
Class DateLaws {D P} (DS : DateSys R D P) (tm : D -> R) : Prop := {
  law_ltb : forall a b, d_ltb a b = true <-> tm a < tm b;
  law_leb : forall a b, d_leb a b = true <-> tm a <= tm b;
  law_eqb : forall a b, d_eqb a b = true <-> tm a = tm b;
  law_is_refl : forall a, d_is a a = true;
  law_is_eq : forall a b, d_is a b = true -> tm a = tm b;
  law_yf : forall a b, d_yf a b = Ok (tm b - tm a)
}.

(** [yf] never raises, is additive, and vanishes exactly on equal dates; [tau] names
    its values *)
Record additive {D P} {DS : DateSys R D P} (yf : D -> D -> res R) (tau : D -> D -> R) : Prop := {
  add_val : forall a b, yf a b = Ok (tau a b);
  add_add : forall a b c, tau a b + tau b c = tau a c;
  add_zero : forall a b, tau a b = 0 <-> d_eqb a b = true
}.

(** ... and later dates have larger year fractions *)
Definition monotone {D P} {DS : DateSys R D P} (tau : D -> D -> R) : Prop :=
  forall a b, 0 < tau a b <-> d_ltb a b = true.

(** [add_n d p n]: n times adding the period p to d; None if some addition raises *)
Fixpoint add_n {D P} {DS : DateSys R D P} (d : D) (p : P) (n : nat) : option D :=
  match n with
  | O => Some d
  | S m => match d_add d p with Ok d' => add_n d' p m | Err _ => None end
  end.

(** adding the period p always gives a later date *)
Definition advances {D P} {DS : DateSys R D P} (p : P) : Prop :=
  forall d, exists d', d_add d p = Ok d' /\ d_ltb d d' = true.
