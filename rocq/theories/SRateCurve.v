(** Specification vocabulary for rate curves. *)
From Coq Require Import Reals List.
From Verif Require Import Num Spec MDates MCurve MRateCurve SDates.
Import ListNotations.
Open Scope R_scope.

Section Spec.
  Context {D P : Type} {DS : DateSys R D P} {DC : DayCounts R D}.

  (** the curve has value [v] at date [d] (with fixings and spread) *)
  Definition has_value (c : rcurve R D P) (d : D) (v : R) : Prop := rc_call c d = Ok v.

  (** the value at a date depends on the date only, not on the object given *)
  Definition date_values (c : rcurve R D P) : Prop :=
    forall a b, d_eqb a b = true -> rc_call c a = rc_call c b.

  (** the object d is the origin of the curve, as tested by [is] *)
  Definition is_origin (c : rcurve R D P) (d : D) : Prop :=
    exists o, rc_origin c = Some o /\ d_is d o = true.

  (** [ds 0], [ds 1], ... [ds n]: dates, each one period [p] later than the one before *)
  Definition schedule (p : P) (ds : nat -> D) (n : nat) : Prop :=
    forall i, (i < n)%nat -> d_add (ds i) p = Ok (ds (S i)) /\ d_ltb (ds i) (ds (S i)) = true.

  (** adding the period [p] gives a later date, the same one for equal dates *)
  Definition steps (p : P) : Prop :=
    forall a, exists a', d_add a p = Ok a' /\ d_ltb a a' = true /\
      forall b, d_eqb a b = true -> exists b', d_add b p = Ok b' /\ d_eqb a' b' = true.

  (** ... and reaches any date eventually *)
  Definition unbounded (p : P) : Prop :=
    forall a b, exists n x, add_n a p n = Some x /\ d_ltb b x = true.
End Spec.

(** sum and product over 0 <= i < n *)
Definition sum_n (f : nat -> R) (n : nat) : R := Rsum (map f (seq 0 n)).
Definition prod_n (f : nat -> R) (n : nat) : R := Rprod (map f (seq 0 n)).
